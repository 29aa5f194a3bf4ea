(** * P_Sum: finite sums of reals. *)
Require Import List Bool Arith Lia Reals Lra.
Require Import ZifyBool.
Import ListNotations.
Open Scope R_scope.

Fixpoint rsum (n : nat) (f : nat -> R) : R :=
  match n with O => 0 | S n => rsum n f + f n end.

Lemma rsum_ext n f g : (forall i, (i < n)%nat -> f i = g i) -> rsum n f = rsum n g.
Proof. induction n; simpl; intros H; auto. rewrite IHn, H; auto. Qed.
Lemma rsum_zero n f : (forall i, (i < n)%nat -> f i = 0) -> rsum n f = 0.
Proof. induction n; simpl; intros H; auto. rewrite IHn, H by auto. lra. Qed.
Lemma rsum_plus n f g : rsum n (fun i => f i + g i) = rsum n f + rsum n g.
Proof. induction n; simpl; [lra|]. rewrite IHn. lra. Qed.
Lemma rsum_minus n f g : rsum n (fun i => f i - g i) = rsum n f - rsum n g.
Proof. induction n; simpl; [lra|]. rewrite IHn. lra. Qed.
Lemma rsum_scal n a f : rsum n (fun i => a * f i) = a * rsum n f.
Proof. induction n; simpl; [lra|]. rewrite IHn. lra. Qed.
Lemma rsum_scal_r n a f : rsum n (fun i => f i * a) = rsum n f * a.
Proof. induction n; simpl; [lra|]. rewrite IHn. lra. Qed.
Lemma rsum_const n a : rsum n (fun _ => a) = INR n * a.
Proof. induction n; [simpl; lra|]. rewrite S_INR. simpl. rewrite IHn. lra. Qed.
Lemma rsum_swap n m f : rsum n (fun i => rsum m (fun j => f i j)) = rsum m (fun j => rsum n (fun i => f i j)).
Proof.
  induction n; simpl.
  - symmetry. apply rsum_zero. auto.
  - rewrite IHn. rewrite <- rsum_plus. reflexivity.
Qed.
Lemma rsum_abs n f : Rabs (rsum n f) <= rsum n (fun i => Rabs (f i)).
Proof.
  induction n; simpl; [rewrite Rabs_R0; lra|].
  eapply Rle_trans; [apply Rabs_triang|]. lra.
Qed.
Lemma rsum_le n f g : (forall i, (i < n)%nat -> f i <= g i) -> rsum n f <= rsum n g.
Proof. induction n; simpl; intros H; [lra|]. apply Rplus_le_compat; auto. Qed.
Lemma rsum_nonneg n f : (forall i, (i < n)%nat -> 0 <= f i) -> 0 <= rsum n f.
Proof. induction n; simpl; intros H; [lra|]. apply Rplus_le_le_0_compat; auto. Qed.
Lemma rsum_split n m f : rsum (n + m) f = rsum n f + rsum m (fun i => f (n + i)%nat).
Proof.
  induction m; simpl; [rewrite Nat.add_0_r; lra|]. rewrite <- plus_n_Sm. simpl. rewrite IHm. lra.
Qed.
Lemma rsum_S n f : rsum (S n) f = f O + rsum n (fun i => f (S i)).
Proof. change (S n) with (1 + n)%nat. rewrite rsum_split. simpl. lra. Qed.
Lemma rsum_term_le n f i : (forall i, (i < n)%nat -> 0 <= f i) -> (i < n)%nat -> f i <= rsum n f.
Proof.
  induction n; simpl; intros H Hi; [lia|].
  assert (0 <= rsum n f) by (apply rsum_nonneg; auto).
  assert (0 <= f n) by auto.
  destruct (Nat.eq_dec i n) as [->|]; [lra|].
  assert (f i <= rsum n f) by (apply IHn; auto; lia). lra.
Qed.
Lemma rsum_zero_inv n f : (forall i, (i < n)%nat -> 0 <= f i) -> rsum n f = 0 -> forall i, (i < n)%nat -> f i = 0.
Proof.
  intros H H0 i Hi. pose proof (rsum_term_le n f i H Hi). pose proof (H i Hi). lra.
Qed.

(** Kronecker: only index k contributes *)
Lemma rsum_single n f k : (k < n)%nat -> (forall i, (i < n)%nat -> i <> k -> f i = 0) -> rsum n f = f k.
Proof.
  induction n; intros Hk H; [lia|]. simpl.
  destruct (Nat.eq_dec k n) as [->|].
  - rewrite rsum_zero; [lra|]. intros; apply H; lia.
  - rewrite IHn by (try lia; intros; apply H; lia). rewrite (H n) by lia. lra.
Qed.

(** pairs of consecutive terms *)
Lemma rsum_pairs n f : rsum (2 * n) f = rsum n (fun i => f (2 * i)%nat + f (2 * i + 1)%nat).
Proof.
  induction n; [reflexivity|].
  replace (2 * S n)%nat with (S (S (2 * n))) by lia. cbn [rsum]. rewrite IHn.
  replace (S (2 * n)) with (2 * n + 1)%nat by lia. lra.
Qed.

(** reversed order *)
Lemma rsum_rev n f : rsum n f = rsum n (fun i => f (n - 1 - i)%nat).
Proof.
  induction n; [reflexivity|]. rewrite (rsum_S n (fun i => f (S n - 1 - i)%nat)).
  replace (S n - 1 - 0)%nat with n by lia. cbn [rsum]. rewrite IHn, Rplus_comm. f_equal.
  apply rsum_ext. intros i Hi. f_equal. lia.
Qed.

(** rotation of a periodic sequence *)
Lemma rsum_rot_periodic n g s : (forall i, g (i + n)%nat = g i) ->
  rsum n (fun i => g (s + i)%nat) = rsum n g.
Proof.
  intros H. induction s; [reflexivity|]. rewrite <- IHs.
  destruct n; [reflexivity|].
  rewrite (rsum_S n (fun i => g (s + i)%nat)). cbn [rsum].
  replace (S s + n)%nat with (s + S n)%nat by lia. rewrite H, Nat.add_0_r.
  rewrite Rplus_comm. f_equal. apply rsum_ext. intros. f_equal. lia.
Qed.
Lemma rsum_rot n f s : (0 < n)%nat -> rsum n (fun i => f ((s + i) mod n)%nat) = rsum n f.
Proof.
  intros Hn.
  rewrite (rsum_rot_periodic n (fun i => f (i mod n)%nat) s).
  - apply rsum_ext. intros. rewrite Nat.mod_small; auto.
  - intros. f_equal. rewrite <- (Nat.mul_1_l n) at 1. apply Nat.mod_add. lia.
Qed.

(** list sums *)
Fixpoint lsum {X} (l : list X) (f : X -> R) : R :=
  match l with [] => 0 | x :: l => f x + lsum l f end.
Lemma lsum_ext {X} (l : list X) f g : (forall x, In x l -> f x = g x) -> lsum l f = lsum l g.
Proof. induction l; simpl; intros H; auto. rewrite IHl, H; auto. Qed.
Lemma lsum_app {X} (l l' : list X) f : lsum (l ++ l') f = lsum l f + lsum l' f.
Proof. induction l; simpl; [lra|]. rewrite IHl. lra. Qed.
Lemma lsum_map {X Y} (h : X -> Y) l f : lsum (map h l) f = lsum l (fun x => f (h x)).
Proof. induction l; simpl; auto. rewrite IHl. auto. Qed.
Lemma lsum_flat_map {X Y} (h : X -> list Y) l f : lsum (flat_map h l) f = lsum l (fun x => lsum (h x) f).
Proof. induction l; simpl; auto. rewrite lsum_app, IHl. auto. Qed.
Lemma lsum_filter {X} (b : X -> bool) l f : lsum (filter b l) f = lsum l (fun x => if b x then f x else 0).
Proof. induction l; simpl; auto. destruct (b a); simpl; rewrite IHl; lra. Qed.
Lemma lsum_plus {X} (l : list X) f g : lsum l (fun x => f x + g x) = lsum l f + lsum l g.
Proof. induction l; simpl; [lra|]. rewrite IHl. lra. Qed.
Lemma lsum_scal {X} (l : list X) a f : lsum l (fun x => a * f x) = a * lsum l f.
Proof. induction l; simpl; [lra|]. rewrite IHl. lra. Qed.
Lemma lsum_zero {X} (l : list X) f : (forall x, In x l -> f x = 0) -> lsum l f = 0.
Proof. induction l; simpl; intros H; auto. rewrite IHl, H by auto. lra. Qed.
Lemma lsum_swap {X Y} (l : list X) (l' : list Y) f :
  lsum l (fun x => lsum l' (fun y => f x y)) = lsum l' (fun y => lsum l (fun x => f x y)).
Proof.
  induction l; simpl.
  - symmetry; apply lsum_zero; auto.
  - rewrite IHl, <- lsum_plus. reflexivity.
Qed.
Lemma lsum_abs {X} (l : list X) f : Rabs (lsum l f) <= lsum l (fun x => Rabs (f x)).
Proof.
  induction l; simpl; [rewrite Rabs_R0; lra|].
  eapply Rle_trans; [apply Rabs_triang|]. lra.
Qed.
Lemma lsum_le {X} (l : list X) f g : (forall x, In x l -> f x <= g x) -> lsum l f <= lsum l g.
Proof. induction l; simpl; intros H; [lra|]. apply Rplus_le_compat; auto. Qed.
Lemma lsum_seq n s f : lsum (seq s n) f = rsum n (fun i => f (s + i)%nat).
Proof.
  revert s; induction n; intros s; [reflexivity|].
  cbn [seq lsum]. rewrite IHn, rsum_S, Nat.add_0_r. f_equal. apply rsum_ext. intros; f_equal; lia.
Qed.
Lemma lsum_seq0 n f : lsum (seq 0 n) f = rsum n f.
Proof. apply lsum_seq. Qed.
Lemma lsum_combine_seq {X} (l : list X) (d : X) f s :
  lsum (combine (seq s (length l)) l) f = rsum (length l) (fun i => f ((s + i)%nat, nth i l d)).
Proof.
  revert s; induction l as [|x l IH]; intros s; [reflexivity|].
  cbn [length seq combine lsum]. rewrite IH, rsum_S, Nat.add_0_r. cbn [nth]. f_equal.
  apply rsum_ext. intros. do 2 f_equal. lia.
Qed.
Lemma fold_left_lsum {X} (l : list X) f a : fold_left (fun acc x => acc + f x) l a = a + lsum l f.
Proof. revert a; induction l; intros; simpl; [lra|]. rewrite IHl. lra. Qed.
