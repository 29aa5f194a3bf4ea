(** * S_Gen: storing and reading a buffer again and again *)
Require Import List Bool Arith ZArith.
Require Import Verif.M_Base Verif.M_Params Verif.M_Buffer Verif.M_Archive Verif.M_Serializer Verif.S_Serializer.
Import ListNotations.
Open Scope Z_scope.

(** Serialize at each of the levels in turn, each blob parsed before the next *)
Fixpoint generations (cd : codec) (legacy : buffer word -> list Z -> res (option (buffer word)))
    (levels : list Z) (b : buffer word) : res (option (buffer word)) :=
  match levels with
  | [] => Ok (Some b)
  | sf :: t =>
      let* blob := serialize cd b sf in
      match blob with
      | None => Ok None
      | Some s =>
          let* r := parse cd legacy s in
          match r with None => Ok None | Some b' => generations cd legacy t b' end
      end
  end.
Definition coarsest (levels : list Z) : Z := fold_right (fun sf m => Z.max (Z.min 31 sf) m) 0 levels.

(** [q s]: what the float codec makes of a value at level s (0: nothing).
    Coarser levels contain finer ones, zeros stay zeros. *)
Definition nested (q : Z -> word -> word) : Prop :=
  (forall x, q 0 x = x) /\
  (forall s t x, 0 <= s <= 31 -> 0 <= t <= 31 -> q s (q t x) = q (Z.max s t) x) /\
  (forall s x, 0 <= s <= 31 -> is_zero x = true -> is_zero (q s x) = true).

(** equal but for signs of zeros *)
Definition same_word (x y : word) : Prop := x = y \/ is_zero x = true /\ is_zero y = true.
Definition same_mat (m m' : mat word) : Prop :=
  rows m = rows m' /\ cols m = cols m' /\ Forall2 same_word (elts m) (elts m').
Definition same_buffer (b b' : buffer word) : Prop :=
  bpar b = bpar b' /\ Forall2 (Forall2 same_mat) (bdec b) (bdec b').
