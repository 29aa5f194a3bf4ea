(** * M_ZeroDer: DaubechiesMat (sources/wavelet.cc:7-135) with its third
    argument.  The library itself never passes it (default: Periodized). *)
Require Import List Bool Arith ZArith.
Require Import Verif.M_Base Verif.M_Wavelet.
Import ListNotations.
Open Scope Z_scope.

(** wavelet.h:19 enum class Padding; an enum class can hold other values of
    its underlying type *)
Inductive padding_mode := ZeroDerivative | Periodized | OtherPadding (value : Z).

Section ZeroDer.
Context {T : Type} {A : Arith T}.

(** signed overflow is UB *)
Definition int_ok (z : Z) : bool := (- 2 ^ 31 <=? z) && (z <? 2 ^ 31).
(** conversion of a size_t to int *)
Definition to_int (z : Z) : Z := (z + 2 ^ 31) mod 2 ^ 32 - 2 ^ 31.

(** wavelet.cc:69-97 and 101-129: one row for the (reversed) filter [f];
    [j == size - 1] and [j < size - 1] compare as size_t, for which a negative
    [j] is large: equal to or below [size - 1] only if [size] is over 2^63. *)
Definition zero_der_row (size : nat) (f : list T) (i : nat) : res (list (nat * T)) :=
  let L := Z.of_nat (length f) in
  let left := Z.quot (L - 1) 2 in                                         (* 66, 70 *)
  let ii := to_int (Z.of_nat i) in
  let* _ := guard (int_ok (2 * ii) && int_ok (- left + 2 * ii)) in
  let j0 := - left + 2 * ii in                                            (* 71 *)
  let* lp := loop (Z.to_nat (- j0)) 0 (fun k acc =>                       (* 74-77 *)
    let* v := rd f k in Ok (aadd acc v)) a0 in
  let l := to_int (j0 + L - Z.of_nat size) in                             (* 81 *)
  let* rp := loop (Z.to_nat l) 0 (fun k acc =>                            (* 82-84 *)
    let* _ := guard (k <? length f)%nat in
    let* v := rd f (length f - 1 - k) in Ok (aadd acc v)) a0 in
  loop (length f) 0 (fun k row =>                                         (* 86-96 *)
    let j := j0 + Z.of_nat k in
    let* _ := guard (int_ok j) in
    let* v := rd f k in
    if j =? 0 then append_row size row (Z.to_nat j) (aadd lp v)
    else if j =? Z.of_nat size - 1 then append_row size row (Z.to_nat j) (aadd rp v)
    else if (0 <? j) && (j <? Z.of_nat size - 1) then append_row size row (Z.to_nat j) v
    else Ok row) [].

(** wavelet.cc:7-135 *)
Definition daubechies_mat_pad (size : nat) (order : Z) (padding : padding_mode) : res (smat T) :=
  match padding with
  | Periodized => daubechies_mat size order
  | ZeroDerivative =>
      let* _ := guard (Z.even order) in                                   (* 9 *)
      let* _ := guard (order <=? Z.of_nat size) in                        (* 10 *)
      let* w := dbwavf (order / 2) in
      let '(lo_d, hi_d, _, _) := orthfilt w in
      let lo := rev lo_d in
      let hi := rev hi_d in
      let* rl := tabulateM (size / 2) (fun i => zero_der_row size lo i) in
      let* rh := tabulateM (size / 2) (fun i => zero_der_row size hi i) in
      Ok (SMat size size (rl ++ rh ++ repeat [] (size - (size / 2 + size / 2))))
  | OtherPadding _ =>
      let* _ := guard (Z.even order) in
      let* _ := guard (order <=? Z.of_nat size) in
      let* _ := dbwavf (T := T) (order / 2) in
      Ok (SMat size size (repeat [] size))                                (* 131 *)
  end.

End ZeroDer.
