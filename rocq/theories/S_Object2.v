(** * S_Object2: programs that use buffers as documented. *)
Require Import List Bool Arith ZArith.
Require Import Verif.M_Base Verif.M_Params Verif.M_Buffer Verif.M_View Verif.M_Object.
Require Import Verif.S_Params Verif.S_Buffer Verif.S_Object.
Import ListNotations.
Open Scope nat_scope.

Section Object.
Context {T : Type} {A : Arith T}.

(** every channel is decomposed or still empty *)
Definition whole (b : buffer T) : Prop :=
  accepted (bpar b) /\ Z.of_nat (length (bdec b)) = signum (bpar b) /\
  forall ch, In ch (bdec b) -> untouched (bpar b) ch \/ has_layout (bpar b) ch.

Definition full (w : world T) (i : nat) (b : buffer T) : Prop := nth_error (slots w) i = Some (Full b).
Definition exists_still (w : world T) (i : nat) : Prop := exists s, nth_error (slots w) i = Some s /\ s <> Gone.

(** the operation may be called: the objects it names exist and, where they
    are read, have contents; signals have the declared shape; a view used fits
    its buffer; a reference used is not dead.  Parameters need not be legal. *)
Definition proper (w : world T) (o : op T) : Prop :=
  match o with
  | ONew _ p => params_rep p /\ (0 <= wtype p <= 10)%Z /\ Forall (fun n => (n < 2 ^ 63)%Z) (shape p)
  | ONewWith _ p d => params_rep p /\ (0 <= wtype p <= 10)%Z /\ Forall (fun n => (n < 2 ^ 63)%Z) (shape p) /\
      forall ch, In ch d -> untouched p ch \/ has_layout p ch
  | OCopy _ i | OLook i => exists b, full w i b
  | OMove i | ODestroy i | OView i _ => exists_still w i
  | OAssign _ i j => exists_still w i /\ exists b, full w j b
  | OMoveAssign i j => exists_still w i /\ exists_still w j
  | ODecompose i data den => exists b, full w i b /\ (1 <= signum (bpar b))%Z /\
      Z.of_nat (length data) = signum (bpar b) /\ Forall (shaped (bpar b)) data /\ keeps_shape den
  | OViewDecompose n data den => exists i v b, nth_error (views w) n = Some (i, v) /\ full w i b /\
      in_range v (bpar b) /\ vmutable v = true /\ (1 <= vcount v)%Z /\
      Z.of_nat (length data) = vcount v /\ Forall (shaped (bpar b)) data /\ keeps_shape den
  | OViewCast _ n => exists i v b, nth_error (views w) n = Some (i, v) /\ full w i b /\ in_range v (bpar b)
  | ORef i ch => exists b, full w i b /\ (Z.of_nat ch < signum (bpar b))%Z
  | ORefWrite n sub => exists i ch b, nth_error (owners w) n = Some (Some i, ch) /\ full w i b /\
      (untouched (bpar b) sub \/ has_layout (bpar b) sub)
  end.
Fixpoint properly (w : world T) (l : list (op T)) : Prop :=
  match l with
  | [] => True
  | o :: t => proper w o /\ forall w' r, sstep w o = Ok (w', r) -> properly w' t
  end.
(** the calls that may throw: memory runs out or the constructor refuses *)
Definition may_raise (o : op T) : Prop :=
  match o with
  | ONew mem p => mem = false \/ ~ legal p
  | ONewWith mem p d => mem = false \/ ~ legal p \/ Z.of_nat (length d) <> signum p
  | OCopy mem _ | OAssign mem _ _ | OViewCast mem _ => mem = false
  | _ => False
  end.
End Object.
