(** * P_Rel: the filters and matrices of two arithmetics, value by value. *)
Require Import List Bool Arith ZArith Lia.
Require Import Verif.M_Base Verif.M_Wavelet Verif.P_Base Verif.P_Wavelet Verif.P_Buffer.
Import ListNotations.
Open Scope nat_scope.

Section F2.
Lemma Forall2_len {X Y} {P : X -> Y -> Prop} {l l'} : Forall2 P l l' -> length l = length l'.
Proof. induction 1; simpl; auto. Qed.
Lemma Forall2_nth {X Y} (P : X -> Y -> Prop) l l' x y : Forall2 P l l' -> P x y -> forall k, P (nth k l x) (nth k l' y).
Proof. intros H H0. induction H; destruct k; simpl; auto. Qed.
Lemma Forall2_rev {X Y} (P : X -> Y -> Prop) l l' : Forall2 P l l' -> Forall2 P (rev l) (rev l').
Proof. induction 1; simpl; auto. apply Forall2_app; auto. Qed.
Lemma Forall2_map_same {X Y Z} (P : Y -> Z -> Prop) (f : X -> Y) (g : X -> Z) l :
  (forall x, In x l -> P (f x) (g x)) -> Forall2 P (map f l) (map g l).
Proof. induction l; simpl; intros H; constructor; auto. Qed.
Lemma Forall2_map2 {X Y X' Y'} (P : X -> Y -> Prop) (Q : X' -> Y' -> Prop) f g l l' :
  (forall x y, P x y -> Q (f x) (g y)) -> Forall2 P l l' -> Forall2 Q (map f l) (map g l').
Proof. intros H. induction 1; simpl; auto. Qed.
Lemma Forall2_repeat {X Y} (P : X -> Y -> Prop) x y n : P x y -> Forall2 P (repeat x n) (repeat y n).
Proof. intros. induction n; simpl; auto. Qed.
Lemma Forall2_flat_map {X Y X' Y'} (P : X -> Y -> Prop) (Q : X' -> Y' -> Prop) f g l l' :
  (forall x y, P x y -> Forall2 Q (f x) (g y)) -> Forall2 P l l' -> Forall2 Q (flat_map f l) (flat_map g l').
Proof. intros H. induction 1; simpl; auto. apply Forall2_app; auto. Qed.
Lemma Forall2_filter {X Y} (P : X -> Y -> Prop) f g l l' :
  (forall x y, P x y -> f x = g y) -> Forall2 P l l' -> Forall2 P (filter f l) (filter g l').
Proof. intros H. induction 1; simpl; auto. rewrite (H x y H0). destruct (g y); auto. Qed.
Lemma Forall2_number {X Y} (P : X -> Y -> Prop) l l' : Forall2 P l l' -> forall s,
  Forall2 (fun a b => fst a = fst b /\ P (snd a) (snd b)) (combine (seq s (length l)) l) (combine (seq s (length l')) l').
Proof. induction 1; simpl; intros; auto. Qed.
End F2.

Section Rel.
Context {T U : Type} {A : Arith T} {B : Arith U}.
Variable Rv : T -> U -> Prop.
Hypothesis R0 : Rv a0 a0.
Hypothesis Ropp : forall x y, Rv x y -> Rv (aopp x) (aopp y).

Definition er (a : nat * T) (b : nat * U) : Prop := fst a = fst b /\ Rv (snd a) (snd b).

Lemma negate_rel f i l l' : Forall2 Rv l l' -> Forall2 Rv (negate_from f i l) (negate_from f i l').
Proof.
  intros H. revert i. induction H; intros i; cbn [negate_from]; constructor; auto.
  destruct ((f <=? i) && Nat.even (i - f)); auto.
Qed.
Lemma qmf_rel l l' : Forall2 Rv l l' -> Forall2 Rv (qmf l) (qmf l').
Proof.
  intros H. unfold qmf. rewrite (Forall2_len H). apply negate_rel, Forall2_rev; auto.
Qed.
Lemma hi_rel t : Forall2 Rv (lo_r t) (lo_r t) -> Forall2 Rv (hi_r t) (hi_r t).
Proof. apply qmf_rel. Qed.

Lemma drow_rel n f f' i : Forall2 Rv f f' -> Forall2 er (drow n f i) (drow n f' i).
Proof.
  intros H. unfold drow. rewrite (Forall2_len H). apply Forall2_map_same. intros m _.
  split; cbn [fst snd]; auto. apply Forall2_nth; auto.
Qed.
Lemma dmat_rel n lo hi lo' hi' : Forall2 Rv lo lo' -> Forall2 Rv hi hi' ->
  Forall2 (Forall2 er) (srow (dmat_pure n lo hi)) (srow (dmat_pure n lo' hi')).
Proof.
  intros H1 H2. unfold dmat_pure; cbn [srow].
  repeat apply Forall2_app.
  - apply Forall2_map_same. intros. apply drow_rel; auto.
  - apply Forall2_map_same. intros. apply drow_rel; auto.
  - apply Forall2_repeat. constructor.
Qed.
Lemma stranspose_rel (m : smat T) (m' : smat U) : scols m = scols m' ->
  Forall2 (Forall2 er) (srow m) (srow m') ->
  Forall2 (Forall2 er) (srow (stranspose m)) (srow (stranspose m')).
Proof.
  intros HC H. unfold stranspose; cbn [srow]. rewrite HC.
  apply Forall2_map_same. intros c _.
  apply (Forall2_flat_map (fun a b => fst a = fst b /\ Forall2 er (snd a) (snd b))); [|apply Forall2_number; auto].
  intros [i r] [i' r'] [E F]; cbn [fst snd] in *. subst i'.
  apply (Forall2_map2 er).
  - intros x y [_ Hv]. split; auto.
  - apply Forall2_filter; auto. intros x y [E _]. rewrite E. reflexivity.
Qed.
Lemma srow_at_rel (m : smat T) (m' : smat U) i : Forall2 (Forall2 er) (srow m) (srow m') ->
  Forall2 er (srow_at m i) (srow_at m' i).
Proof. intros H. unfold srow_at. apply (Forall2_nth (Forall2 er)); auto. Qed.

Lemma dm_rel t n i : Forall2 Rv (lo_r t) (lo_r t) -> Forall2 er (srow_at (dm t n) i) (srow_at (dm t n) i).
Proof. intros H. apply srow_at_rel, dmat_rel; auto. apply hi_rel; auto. Qed.
Lemma dmT_rel t n i : Forall2 Rv (lo_r t) (lo_r t) -> Forall2 er (srow_at (dmT t n) i) (srow_at (dmT t n) i).
Proof.
  intros H. apply srow_at_rel, stranspose_rel; [reflexivity|]. apply dmat_rel; auto. apply hi_rel; auto.
Qed.
End Rel.
