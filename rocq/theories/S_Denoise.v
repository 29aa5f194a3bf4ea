(** * S_Denoise: what the library denoisers promise. *)
Require Import List Bool Arith ZArith Reals Permutation.
Require Import Verif.M_Base Verif.M_Real Verif.M_Denoise Verif.M_Buffer.
Import ListNotations.
Open Scope nat_scope.

(** The contract of std::nth_element with comparator "first greater": a
    permutation in which nothing from position k on compares greater than
    anything before it. *)
Definition nth_element_contract {T K} {M : Mag T} (ne : list (T * K) -> nat -> list (T * K)) : Prop :=
  forall l k, k <= length l ->
    Permutation l (ne l k) /\
    forall i j x y, i < k -> k <= j -> nth_error (ne l k) i = Some x -> nth_error (ne l k) j = Some y ->
      mgt (fst y) (fst x) = false.

(** The same for lists whose keys are all comparable only: std::nth_element
    needs a strict weak order, which ">" is not as soon as there is a NaN. *)
Definition nth_element_on {T K} {M : Mag T} (comparable : T -> Prop) (ne : list (T * K) -> nat -> list (T * K)) : Prop :=
  forall l k, k <= length l -> Forall (fun e => comparable (fst e)) l ->
    Permutation l (ne l k) /\
    forall i j x y, i < k -> k <= j -> nth_error (ne l k) i = Some x -> nth_error (ne l k) j = Some y ->
      mgt (fst y) (fst x) = false.

(** Exact real numbers: > and |.|; truncation of n*level. *)
#[global] Instance realMag : Mag R := {|
  mabs := Rabs;
  mgt := fun x y => if Rlt_dec y x then true else false;
  mnat := INR;
  mtrunc := fun n x => if Rle_dec 0 (INR n * x) then Ok (Z.to_nat (Int_part (INR n * x))) else UB
|}.

(** [keep] : positions whose value survives, all others become 0. *)
Definition keeps_only1 {T} {A : Arith T} (keep : list nat) (data out : list T) : Prop :=
  length out = length data /\
  forall i x, nth_error data i = Some x ->
    nth_error out i = Some (if existsb (Nat.eqb i) keep then x else a0).
Definition in_pos (i j : nat) (keep : list (nat * nat)) : bool :=
  existsb (fun p => (i =? fst p) && (j =? snd p)) keep.
Definition keeps_only2 {T} {A : Arith T} (keep : list (nat * nat)) (data out : mat T) : Prop :=
  mwf out /\ rows out = rows data /\ cols out = cols data /\
  forall i j x, mget data i j = Ok x ->
    mget out i j = Ok (if in_pos i j keep then x else a0).
