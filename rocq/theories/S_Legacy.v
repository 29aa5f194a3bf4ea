(** * S_Legacy: compressed version 2 blobs as older releases wrote them *)
Require Import List ZArith Bool.
Import ListNotations.
From Verif Require Import M_Base M_Params M_Buffer S_Params S_Buffer M_Archive S_Serializer M_SfCodec S_SfCodec.
Open Scope Z_scope.

(** the elements other than zero, with their positions row by row *)
Fixpoint entries (k : Z) (l : list word) : list (Z * word) :=
  match l with
  | [] => []
  | x :: t => if is_zero x then entries (k + 1) t else (k, x) :: entries (k + 1) t
  end.

(** a matrix as the compressor takes it, [fl] bits of every fraction kept *)
Definition origin_of (fl : Z) (m : mat word) : origin :=
  Origin fl true (Z.of_nat (rows m)) (Z.of_nat (cols m))
    (map fst (entries 0 (elts m))) (map snd (entries 0 (elts m))).

(** Bytes Parse reserves for subband [s]: 6 per element of the signal, halved
    (1-D) with every subband or quartered (2-D) with every three. *)
Definition room (p : params) (s : nat) : Z :=
  match shape p with
  | [n] => 6 * n / 2 ^ Z.of_nat s
  | [n0; n1] => 6 * (n0 * n1) / 4 ^ (Z.of_nat s / 3)
  | _ => 0
  end.
Definition elements (p : params) : Z := fold_right Z.mul 1 (shape p).

(** One stream per subband: what Compress makes of it (with enough memory) *)
Definition stream_for (fl : Z) (p : params) (s : nat) (m : mat word) (bytes : list Z) : Prop :=
  let n := length (entries 0 (elts m)) in
  (1 <= n)%nat /\ Z.of_nat (rows m) * Z.of_nat (cols m) <= 2 ^ 15 /\ mwf m /\
  compress (4 * (74 + 3 * n)) (origin_of fl m) = Ok (Some bytes) /\
  Z.of_nat (length bytes) <= room p s /\ Z.of_nat n <= room p s.

Fixpoint streams_from {X Y} (P : nat -> X -> Y -> Prop) (s : nat) (l : list X) (l' : list Y) : Prop :=
  match l, l' with
  | [], [] => True
  | x :: t, y :: t' => P s x y /\ streams_from P (S s) t t'
  | _, _ => False
  end.
Definition streams_for (fl : Z) (b : buffer word) (streams : list (list (list Z))) : Prop :=
  Forall2 (streams_from (stream_for fl (bpar b)) 0) (bdec b) streams.

Definition blob_v2_compressed (p : params) (sf : Z) (streams : list (list (list Z))) : list Z :=
  [2] ++ put_params p ++ [sf] ++ concat (map put_bytes (concat streams)).
