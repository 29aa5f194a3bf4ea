(** * S_Print: what a user expects of printed parameters *)
Require Import List Bool ZArith String Ascii.
Import ListNotations.
Open Scope string_scope.

(** A printed value can be told from what comes after it *)
Definition readable {X} (P : X -> Prop) (show : X -> string) : Prop :=
  forall a b s t, P a -> P b -> show a ++ s = show b ++ t -> a = b.

Definition contains (part text : string) : Prop := exists a b, text = a ++ part ++ b.

(** the character LF *)
Definition newline : string := String "010"%char "".

(** [s] is a decimal numeral of [z] without superfluous zeros *)
Fixpoint decimal_from (acc : Z) (s : string) : option Z :=
  match s with
  | "" => Some acc
  | String c t =>
      let d := (Z.of_nat (Ascii.nat_of_ascii c) - 48)%Z in
      if ((0 <=? d) && (d <=? 9))%Z%bool then decimal_from (10 * acc + d) t else None
  end.
Definition numeral (s : string) (z : Z) : Prop :=
  s <> "" /\ decimal_from 0 s = Some z /\ (z <> 0 -> get 0 s <> Some "0"%char)%Z /\ (z = 0 -> s = "0")%Z.

Definition type_names : list string := ["NONE"; "DB1"; "DB2"; "DB3"; "DB4"; "DB5"].
