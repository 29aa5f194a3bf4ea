(** * T_Padding: properties C06, C07 *)
Require Import List ZArith Lia.
Require Import Verif.M_Base Verif.M_Padding Verif.S_Padding Verif.P_Padding.
Import ListNotations.
Open Scope nat_scope.

(** C06: what Extend produces, for both algorithms and locations. *)
Theorem C06_extend_replicates (T : Type) r c loc (src : mat T) :
  mwf src -> 1 <= rows src -> 1 <= cols src -> rows src <= r -> cols src <= c ->
  exists dst, extend r c loc src = Ok dst /\ replicates r c loc src dst.
Proof. exact (extend_correct r c loc src). Qed.
Print Assumptions C06_extend_replicates.

Theorem C06_extend_zero (T : Type) (zero : T) r c loc (src : mat T) :
  mwf src -> 1 <= rows src -> 1 <= cols src -> rows src <= r -> cols src <= c ->
  exists dst, extend_zero zero r c loc src = Ok dst /\ zero_padded zero r c loc src dst.
Proof. exact (extend_zero_correct zero r c loc src). Qed.
Print Assumptions C06_extend_zero.

(** outside: a target smaller than the source trips the assert *)
Theorem C06_too_small (T : Type) r c loc (src : mat T) :
  r < rows src \/ c < cols src -> extend r c loc src = UB /\ forall z, extend_zero z r c loc src = UB.
Proof. exact (extend_too_small r c loc src). Qed.
Print Assumptions C06_too_small.

(** C07: cropping back *)
Theorem C07_crop_extend (T : Type) r c loc (src : mat T) :
  mwf src -> 1 <= rows src -> 1 <= cols src -> rows src <= r -> cols src <= c ->
  (let* m := extend r c loc src in crop (rows src) (cols src) loc m) = Ok src.
Proof. exact (crop_extend r c loc src). Qed.
Print Assumptions C07_crop_extend.

Theorem C07_crop_extend_zero (T : Type) (zero : T) r c loc (src : mat T) :
  mwf src -> 1 <= rows src -> 1 <= cols src -> rows src <= r -> cols src <= c ->
  (let* m := extend_zero zero r c loc src in crop (rows src) (cols src) loc m) = Ok src.
Proof. exact (crop_extend_zero zero r c loc src). Qed.
Print Assumptions C07_crop_extend_zero.

(** a 2 x 3 matrix put in the middle of a 5 x 6 one *)
Example C06_case :
  extend 5 6 kBoth (Mat 2 3 [1; 2; 3; 4; 5; 6]) =
  Ok (Mat 5 6 [1; 1; 2; 3; 3; 3;  1; 1; 2; 3; 3; 3;  4; 4; 5; 6; 6; 6;  4; 4; 5; 6; 6; 6;  4; 4; 5; 6; 6; 6]) /\
  extend_zero 0 3 4 kRight (Mat 2 3 [1; 2; 3; 4; 5; 6]) =
  Ok (Mat 3 4 [1; 2; 3; 0;  4; 5; 6; 0;  0; 0; 0; 0]) /\
  mwf (Mat 2 3 [1; 2; 3; 4; 5; 6]).
Proof. repeat split; vm_compute; reflexivity. Qed.
