(** * P_Poly: polynomial stretches of a signal through a filter bank *)
Require Import List Bool Arith ZArith Reals Lra Lia.
Require Import Verif.S_Daub Verif.P_Sum Verif.P_Exact.
Import ListNotations.
Open Scope R_scope.

Fixpoint padd (a b : list R) : list R :=
  match a, b with [], _ => b | _, [] => a | x :: a', y :: b' => (x + y) :: padd a' b' end.
Lemma padd_eval a b z : peval (padd a b) z = peval a z + peval b z.
Proof. revert b. induction a as [|x a IH]; intros [|y b]; cbn [padd peval]; try lra. rewrite IH. ring. Qed.
Lemma padd_length a b n : (length a <= n)%nat -> (length b <= n)%nat -> (length (padd a b) <= n)%nat.
Proof. revert b n. induction a as [|x a IH]; intros [|y b] n Ha Hb; cbn [padd length] in *; try lia. destruct n; [lia|]. specialize (IH b n). lia. Qed.
Lemma pscal_eval v a z : peval (map (Rmult v) a) z = v * peval a z.
Proof. induction a as [|x a IH]; cbn [map peval]; [ring|]. rewrite IH. ring. Qed.

(** a polynomial of an affine argument *)
Lemma affine u v c : exists c', (length c' <= length c)%nat /\ forall z, peval c' z = peval c (u * z + v).
Proof.
  induction c as [|a c (c' & L & E)]; [exists []; split; [lia|reflexivity]|].
  exists (padd (padd [a] (0 :: map (Rmult u) c')) (map (Rmult v) c')). split.
  - cbn [length]. apply padd_length; [apply padd_length; cbn [length]; [lia|rewrite map_length; lia]|rewrite map_length; lia].
  - intro z. rewrite !padd_eval, pscal_eval. cbn [peval]. rewrite pscal_eval, E. ring.
Qed.

(** the values y are those of a polynomial of degree < N at the integers of P *)
Definition poly_on (N : nat) (P : nat -> Prop) (y : nat -> R) : Prop :=
  exists c, (length c <= N)%nat /\ forall i, P i -> y i = peval c (INR i).

Lemma poly_ext N (P : nat -> Prop) (y y' : nat -> R) : (forall i, P i -> y i = y' i) -> poly_on N P y -> poly_on N P y'.
Proof. intros H (c & L & E). exists c. split; [exact L|]. intros i Hi. rewrite <- H by exact Hi. apply E, Hi. Qed.
Lemma poly_sum N P n w (Y : nat -> nat -> R) : (forall l, (l < n)%nat -> poly_on N P (fun i => Y i l)) ->
  poly_on N P (fun i => rsum n (fun l => w l * Y i l)).
Proof.
  induction n; intro H.
  - exists []. split; [cbn [length]; lia|]. reflexivity.
  - destruct IHn as (c & L & E); [intros; apply H; lia|]. destruct (H n ltac:(lia)) as (c' & L' & E').
    exists (padd c (map (Rmult (w n)) c')). split; [apply padd_length; [exact L|rewrite map_length; exact L']|].
    intros i Hi. cbn [rsum]. rewrite padd_eval, pscal_eval, <- E, <- E' by exact Hi. reflexivity.
Qed.
Lemma poly_two N (P Q : nat -> Prop) y k : (forall i, Q i -> P (2 * i + k)%nat) -> poly_on N P y -> poly_on N Q (fun i => y (2 * i + k)%nat).
Proof.
  intros H (c & L & E). destruct (affine 2 (INR k) c) as (c' & L' & E'). exists c'. split; [lia|]. intros i Hi.
  rewrite E', (E _ (H i Hi)). f_equal. rewrite plus_INR, mult_INR. cbn [INR]. ring.
Qed.

(** ** one axis is filtered with 2N taps at even places, the other with ne taps
    at the places st * j + l *)
Section Bank.
Variables (N ne st K : nat) (f e : nat -> R) (F E B : R).
Variable a : nat -> nat -> nat -> R.
Variables (Rin Cin : nat -> nat -> Prop).
Hypothesis HR : forall s i k, Rin (S s) i -> (k < 2 * N)%nat -> Rin s (2 * i + k)%nat.
Hypothesis HC : forall s j l, Cin (S s) j -> (l < ne)%nat -> Cin s (st * j + l)%nat.
Hypothesis Hstep : forall s i j, (s < K)%nat -> Rin (S s) i -> Cin (S s) j ->
  a (S s) i j = rsum (2 * N) (fun k => f k * rsum ne (fun l => e l * a s (2 * i + k)%nat (st * j + l)%nat)).
Hypothesis H0 : forall j, Cin 0%nat j -> poly_on N (Rin 0%nat) (fun i => a 0%nat i j).
Hypothesis HB : forall i j, Rin 0%nat i -> Cin 0%nat j -> Rabs (a 0%nat i j) <= B.
Hypothesis HF : rsum (2 * N) (fun k => Rabs (f k)) <= F.
Hypothesis HE : rsum ne (fun k => Rabs (e k)) <= E.
Hypothesis B0 : 0 <= B.

Lemma sum_bound n (w y : nat -> R) W M : (forall k, (k < n)%nat -> Rabs (y k) <= M) -> 0 <= M -> rsum n (fun k => Rabs (w k)) <= W ->
  Rabs (rsum n (fun k => w k * y k)) <= W * M.
Proof.
  intros H HM HW. eapply Rle_trans; [apply rsum_abs|]. eapply Rle_trans with (rsum n (fun k => Rabs (w k) * M)).
  - apply rsum_le. intros k Hk. rewrite Rabs_mult. apply Rmult_le_compat_l; [apply Rabs_pos|auto].
  - rewrite rsum_scal_r. apply Rmult_le_compat_r; auto.
Qed.
Lemma F0 : 0 <= F. Proof. eapply Rle_trans; [|exact HF]. apply rsum_nonneg. intros. apply Rabs_pos. Qed.
Lemma E0 : 0 <= E. Proof. eapply Rle_trans; [|exact HE]. apply rsum_nonneg. intros. apply Rabs_pos. Qed.
Lemma FE s : 0 <= (F * E) ^ s * B.
Proof. apply Rmult_le_pos; [|exact B0]. apply pow_le. apply Rmult_le_pos; [apply F0|apply E0]. Qed.

Lemma level_bound s : (s <= K)%nat -> forall i j, Rin s i -> Cin s j -> Rabs (a s i j) <= (F * E) ^ s * B.
Proof.
  induction s; intros Hs i j Hi Hj; [cbn [pow]; rewrite Rmult_1_l; auto|].
  rewrite Hstep by (auto; lia). replace ((F * E) ^ S s * B) with (F * (E * ((F * E) ^ s * B))) by (cbn [pow]; ring).
  apply sum_bound; [|apply Rmult_le_pos; [apply E0|apply FE]|exact HF].
  intros k Hk. apply sum_bound; [|apply FE|exact HE]. intros l Hl. apply IHs; [lia| |]; auto.
Qed.

Lemma level_poly s : (s <= K)%nat -> forall j, Cin s j -> poly_on N (Rin s) (fun i => a s i j).
Proof.
  induction s; intros Hs j Hj; [auto|].
  apply poly_ext with (fun i => rsum (2 * N) (fun k => f k * rsum ne (fun l => e l * a s (2 * i + k)%nat (st * j + l)%nat))).
  { intros i Hi. symmetry. apply Hstep; auto. }
  apply poly_sum. intros k Hk. apply poly_sum. intros l Hl.
  apply (poly_two N (Rin s) (Rin (S s)) (fun i => a s i (st * j + l)%nat) k).
  - intros i Hi. apply HR; auto.
  - apply IHs; [lia|]. auto.
Qed.

(** a high-pass filter close to one that kills polynomials of degree < N *)
Lemma detail_bound s (u e' g : nat -> R) delta i j : (s <= K)%nat ->
  (forall k, (k < 2 * N)%nat -> Rabs (u k - g k) <= delta) ->
  (forall c, (length c <= N)%nat -> rsum (2 * N) (fun k => g k * peval c (INR k)) = 0) ->
  rsum ne (fun l => Rabs (e' l)) <= E ->
  (forall k, (k < 2 * N)%nat -> Rin s (2 * i + k)%nat) -> (forall l, (l < ne)%nat -> Cin s (st * j + l)%nat) ->
  Rabs (rsum (2 * N) (fun k => u k * rsum ne (fun l => e' l * a s (2 * i + k)%nat (st * j + l)%nat)))
    <= INR (2 * N) * delta * (E * ((F * E) ^ s * B)).
Proof.
  intros Hs Hu Hg He Hi Hj. set (v := fun i' => rsum ne (fun l => e' l * a s i' (st * j + l)%nat)).
  assert (PV : poly_on N (fun i' => Rin s i') v).
  { unfold v. apply poly_sum. intros l Hl. apply level_poly; auto. }
  assert (BV : forall k, (k < 2 * N)%nat -> Rabs (v (2 * i + k)%nat) <= E * ((F * E) ^ s * B)).
  { intros k Hk. unfold v. apply sum_bound; [|apply FE|exact He]. intros l Hl. apply level_bound; auto. }
  destruct PV as (c & L & Ev).
  assert (Z : rsum (2 * N) (fun k => g k * v (2 * i + k)%nat) = 0).
  { destruct (affine 1 (INR (2 * i)) c) as (c' & L' & E'). rewrite <- (Hg c') by lia. apply rsum_ext. intros k Hk.
    rewrite (Ev _ (Hi k Hk)), E'. do 2 f_equal. rewrite plus_INR. ring. }
  change (Rabs (rsum (2 * N) (fun k => u k * v (2 * i + k)%nat)) <= INR (2 * N) * delta * (E * ((F * E) ^ s * B))).
  replace (rsum (2 * N) (fun k => u k * v (2 * i + k)%nat)) with (rsum (2 * N) (fun k => (u k - g k) * v (2 * i + k)%nat)).
  2:{ rewrite <- (Rminus_0_r (rsum _ (fun k => u k * _))), <- Z, <- rsum_minus. apply rsum_ext. intros. ring. }
  apply sum_bound; [exact BV|apply Rmult_le_pos; [apply E0|apply FE]|].
  rewrite <- rsum_const. apply rsum_le. exact Hu.
Qed.
End Bank.
