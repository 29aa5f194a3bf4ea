(** * S_Sf: specification vocabulary for the legacy codes. *)
Require Import List ZArith.
Import ListNotations.
From Verif Require Import M_Base M_Sf.
Open Scope Z_scope.

(** The [n] low bits of [v], most significant first. *)
Fixpoint bits (n : nat) (v : Z) : list bool :=
  match n with O => [] | S k => Z.testbit v (Z.of_nat k) :: bits k v end.

(** A code of [fst c] bits that the bit stream can carry. *)
Definition is_code (c : Z * Z) : Prop := 0 <= fst c <= 32 /\ 0 <= snd c < 2 ^ fst c.

Definition total_bits (l : list (Z * Z)) : Z := fold_right (fun c s => fst c + s) 0 l.

(** An empty output, and a reader placed at the start of some bytes. *)
Definition empty_writer : writer := Writer [] 0.
Definition reader_at_start (bytes : list Z) : reader := Reader bytes 0 8.

Definition byte (b : Z) : Prop := 0 <= b < 256.

(** Reading one number after the other, each of the given width. *)
Fixpoint get_all (r : reader) (widths : list Z) : res (list Z * reader) :=
  match widths with
  | [] => Ok ([], r)
  | n :: t =>
      let* (v, r1) := get_bits r n in
      let* (l, r2) := get_all r1 t in Ok (v :: l, r2)
  end.

(** [k] is the first position of a border that is not below [v], or the last
    position. *)
Definition first_border (borders : list Z) (v k : Z) : Prop :=
  0 <= k < Z.of_nat (length borders) /\
  (forall j b, (j < Z.to_nat k)%nat -> nth_error borders j = Some b -> b < v) /\
  (forall b, nth_error borders (Z.to_nat k) = Some b ->
     v <= b \/ k = Z.of_nat (length borders) - 1).

Definition increasing (l : list Z) : Prop :=
  forall i j a b, (i < j)%nat -> nth_error l i = Some a -> nth_error l j = Some b -> a < b.
