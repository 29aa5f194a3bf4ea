(** * S_Canon: which bytes stand for a subband in an uncompressed blob.  Uses
    the matrix type, [number] of S_Damage and the types of S_Serializer. *)
Require Import List Arith ZArith.
Require Import Verif.M_Base Verif.M_Params Verif.M_Buffer Verif.M_Archive Verif.S_Params Verif.S_Buffer Verif.S_Serializer Verif.S_Damage.
Import ListNotations.
Open Scope Z_scope.

(** [bytes] stand for the subband [m]: the tag, rows, columns, a number
    [count] of elements, the elements row by row, four bytes each *)
Definition stored_with (count : Z) (m : mat word) (bytes : list Z) : Prop :=
  mwf m /\ Z.of_nat (rows m) * Z.of_nat (cols m) < 2 ^ 64 /\
  exists r c k vals, bytes = [1; 1; 3; 4] ++ r ++ c ++ k ++ concat vals /\
    length r = 8%nat /\ number r = Z.of_nat (rows m) /\
    length c = 8%nat /\ number c = Z.of_nat (cols m) /\
    length k = 8%nat /\ number k = count /\
    Forall2 (fun v w => length v = 4%nat /\ number v = wbits w) vals (elts m).
(** what Serialize writes: the true number of elements *)
Definition stored_exact (m : mat word) (bytes : list Z) : Prop :=
  stored_with (Z.of_nat (rows m) * Z.of_nat (cols m)) m bytes.
(** what Parse takes: any number that is not too large *)
Definition stored_loose (m : mat word) (bytes : list Z) : Prop :=
  exists count, 0 <= count <= Z.of_nat (rows m) * Z.of_nat (cols m) /\ stored_with count m bytes.

(** a buffer with parameters p whose subbands, channel after channel, stand
    in [body] one after the other, [rest] following *)
Definition holds (stored : mat word -> list Z -> Prop) (p : params) (b : buffer word) (body rest : list Z) : Prop :=
  bpar b = p /\ Z.of_nat (length (bdec b)) = signum p /\
  (forall ch, In ch (bdec b) -> length ch = (nsteps p * bands p + 1)%nat) /\
  exists mats, body = concat mats ++ rest /\ Forall2 stored (concat (bdec b)) mats.
