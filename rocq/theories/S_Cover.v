(** * S_Cover: which samples a coefficient belongs to. *)
Require Import List Bool Arith ZArith.
Require Import Verif.M_Base Verif.M_Params Verif.M_Buffer Verif.S_Buffer Verif.S_Local Verif.S_Preview.
Import ListNotations.
Open Scope nat_scope.

(** number of neighbouring samples along one side that one coefficient of [d]
    steps spans: 2^d for DB1 *)
Definition support (p : params) (d : nat) : nat := 1 + (2 ^ d - 1) * (2 * Z.to_nat (wtype p) - 1).
(** coefficient [c] spans sample [r] of a side of [n] samples: those that
    follow sample 2^d c, going on with the first after the last *)
Definition covers (p : params) (d n c r : nat) : Prop :=
  exists z, 2 ^ d * c <= z < 2 ^ d * c + support p d /\ r = z mod n.

(** number of steps that led to subband [q] *)
Definition depth (p : params) (q : nat) : nat :=
  if q <? nsteps p * bands p then q / bands p + 1 else nsteps p.
(** coefficient (r, v) of subband [q] spans sample (i, j) of the approximation
    after [k] steps, for k = 0 of the padded signal *)
Definition spans (p : params) (k q r v i j : nat) : Prop :=
  covers p (depth p q - k) (level_rows p k) r i /\ covers p (depth p q - k) (level_cols p k) v j.

(** a denoiser that looks at one coefficient at a time *)
Definition pointwise {T} (den : denoiser T) : Prop :=
  exists f : nat -> T -> T,
    (forall l s, den1 den l s = map (f s) l) /\
    (forall m s, mwf m -> den2 den m s = Mat (rows m) (cols m) (map (f s) (elts m))).
