(** * P_Kant: a zero of a system of quadratic equations near an approximate
    one (Newton-Kantorovich, with an approximate inverse of the Jacobian). *)
Require Import List Bool Arith ZArith Reals Lra Lia.
Require Import Verif.P_Sum.
Import ListNotations.
Open Scope R_scope.

Lemma small_half a b c : (forall k : nat, a <= b + c * (1 / 2) ^ k) -> a <= b.
Proof.
  intro H. destruct (Rle_dec a b) as [L|L]; [exact L|]. exfalso.
  set (e := a - b). assert (E : 0 < e) by (unfold e; lra).
  pose proof (Rabs_pos c) as PC.
  destruct (pow_lt_1_zero (1 / 2) ltac:(rewrite Rabs_pos_eq; lra) (e / (Rabs c + 1)) ltac:(apply Rdiv_lt_0_compat; lra)) as (n & Hn).
  specialize (Hn n (le_n n)). specialize (H n).
  assert (P : 0 < (1 / 2) ^ n) by (apply pow_lt; lra).
  rewrite Rabs_pos_eq in Hn by lra.
  assert (Q : (Rabs c + 1) * (1 / 2) ^ n < e).
  { apply Rmult_lt_reg_l with (/ (Rabs c + 1)); [apply Rinv_0_lt_compat; lra|].
    rewrite <- Rmult_assoc, Rinv_l, Rmult_1_l by lra. unfold Rdiv in Hn. lra. }
  pose proof (Rle_abs c). assert (c * (1 / 2) ^ n <= Rabs c * (1 / 2) ^ n) by (apply Rmult_le_compat_r; lra).
  unfold e in *. lra.
Qed.

(** ** a contraction of a box has a fixed point *)
Section Fix.
Variables (n : nat) (T : (nat -> R) -> nat -> R) (r : R).
Hypothesis Hr : 0 <= r.
Definition box (s : R) (d : nat -> R) : Prop := forall i, (i < n)%nat -> Rabs (d i) <= s.
Hypothesis Hbox : forall d, box r d -> box r (T d).
Hypothesis Hcon : forall d e s, box r d -> box r e -> box s (fun i => d i - e i) -> box (s / 2) (fun i => T d i - T e i).

Fixpoint it (k : nat) : nat -> R := match k with O => fun _ => 0 | S k' => T (it k') end.

Lemma it_box k : box r (it k).
Proof. induction k; cbn [it]; [intros i _; rewrite Rabs_R0; lra|auto]. Qed.

Lemma it_step k : box (r * (1 / 2) ^ k) (fun i => it (S k) i - it k i).
Proof.
  induction k.
  - intros i Hi. cbn [it pow]. rewrite Rminus_0_r, Rmult_1_r. apply (it_box 1 i Hi).
  - replace (r * (1 / 2) ^ S k) with (r * (1 / 2) ^ k / 2) by (cbn [pow]; field).
    exact (Hcon _ _ _ (it_box (S k)) (it_box k) IHk).
Qed.

Lemma it_far k m i : (i < n)%nat -> Rabs (it (k + m) i - it k i) <= 2 * r * (1 / 2) ^ k * (1 - (1 / 2) ^ m).
Proof.
  intro Hi. induction m.
  - rewrite Nat.add_0_r, Rminus_diag_eq, Rabs_R0 by reflexivity. cbn [pow]. lra.
  - rewrite Nat.add_succ_r.
    replace (it (S (k + m)) i - it k i) with ((it (S (k + m)) i - it (k + m) i) + (it (k + m) i - it k i)) by ring.
    eapply Rle_trans; [apply Rabs_triang|]. pose proof (it_step (k + m) i Hi) as S1. cbn beta in S1.
    rewrite pow_add in S1. cbn [pow]. nra.
Qed.

Lemma it_near k m i : (i < n)%nat -> (k <= m)%nat -> Rabs (it m i - it k i) <= 2 * r * (1 / 2) ^ k.
Proof.
  intros Hi H. replace m with (k + (m - k))%nat by lia. eapply Rle_trans; [apply it_far, Hi|].
  assert (0 < (1 / 2) ^ k) by (apply pow_lt; lra). assert (0 < (1 / 2) ^ (m - k)) by (apply pow_lt; lra).
  assert (0 <= 2 * r * (1 / 2) ^ k) by nra. nra.
Qed.

Lemma it_cauchy i : (i < n)%nat -> Cauchy_crit (fun k => it k i).
Proof.
  intros Hi eps He.
  destruct (pow_lt_1_zero (1 / 2) ltac:(rewrite Rabs_pos_eq; lra) (eps / (4 * r + 1)) ltac:(apply Rdiv_lt_0_compat; lra)) as (N & HN).
  exists N. intros a b Ha Hb. unfold R_dist.
  replace (it a i - it b i) with ((it a i - it N i) - (it b i - it N i)) by ring.
  eapply Rle_lt_trans; [apply Rabs_triang|]. rewrite Rabs_Ropp.
  pose proof (it_near N a i Hi Ha). pose proof (it_near N b i Hi Hb). specialize (HN N (le_n N)).
  assert (P : 0 < (1 / 2) ^ N) by (apply pow_lt; lra). rewrite Rabs_pos_eq in HN by lra.
  assert (Q : (4 * r + 1) * (1 / 2) ^ N < eps).
  { apply Rmult_lt_reg_l with (/ (4 * r + 1)); [apply Rinv_0_lt_compat; lra|].
    rewrite <- Rmult_assoc, Rinv_l, Rmult_1_l by lra. unfold Rdiv in HN. lra. }
  nra.
Qed.

Definition lim (i : nat) : R :=
  match lt_dec i n with left H => proj1_sig (R_complete _ (it_cauchy i H)) | right _ => 0 end.

Lemma lim_near k : box (2 * r * (1 / 2) ^ k) (fun i => lim i - it k i).
Proof.
  intros i Hi. unfold lim. destruct (lt_dec i n) as [H|H]; [|lia].
  destruct (R_complete _ (it_cauchy i H)) as (l & Hl). cbn [proj1_sig].
  apply le_epsilon. intros eps He. destruct (Hl eps He) as (N & HN).
  specialize (HN (Nat.max N k) (Nat.le_max_l N k)). unfold R_dist in HN.
  pose proof (it_near k (Nat.max N k) i Hi (Nat.le_max_r N k)) as F.
  replace (l - it k i) with (- (it (Nat.max N k) i - l) + (it (Nat.max N k) i - it k i)) by ring.
  eapply Rle_trans; [apply Rabs_triang|]. rewrite Rabs_Ropp. lra.
Qed.

Lemma lim_box : box r lim.
Proof.
  intros i Hi. apply (small_half _ _ (2 * r)). intro k.
  pose proof (lim_near k i Hi) as A. cbn beta in A. pose proof (it_box k i Hi) as B.
  replace (lim i) with ((lim i - it k i) + it k i) by ring.
  eapply Rle_trans; [apply Rabs_triang|]. lra.
Qed.

Theorem fixed_point : exists d, box r d /\ forall i, (i < n)%nat -> T d i = d i.
Proof.
  exists lim. split; [apply lim_box|]. intros i Hi.
  assert (E : Rabs (T lim i - lim i) <= 0).
  { apply (small_half _ _ (2 * r)). intro k.
    pose proof (Hcon _ _ _ lim_box (it_box k) (lim_near k) i Hi) as A. cbn beta in A.
    pose proof (lim_near (S k) i Hi) as B. cbn beta in B. cbn [it] in B. cbn [pow] in B.
    replace (T lim i - lim i) with ((T lim i - T (it k) i) - (lim i - T (it k) i)) by ring.
    eapply Rle_trans; [apply Rabs_triang|]. rewrite Rabs_Ropp. lra. }
  pose proof (Rabs_pos (T lim i - lim i)) as P. assert (Z : Rabs (T lim i - lim i) = 0) by lra.
  destruct (Req_dec (T lim i - lim i) 0) as [Q|Q]; [lra|]. apply Rabs_no_R0 in Q. lra.
Qed.
End Fix.

(** ** the quadratic system: F m (x0 + d) = F0 m + J d + B m d *)
Section Newton.
Variables (n : nat) (J C : nat -> nat -> R) (F0 : nat -> R) (B : nat -> (nat -> R) -> R) (r e0 c k1 : R).
Definition unit_ (i k : nat) : R := if Nat.eqb i k then 1 else 0.
Definition CJ i k := rsum n (fun m => C i m * J m k).
Definition JC m l := rsum n (fun k => J m k * C k l).
Hypothesis Hr : 0 <= r.
Hypothesis HCJ : forall i, (i < n)%nat -> rsum n (fun k => Rabs (unit_ i k - CJ i k)) <= k1.
Hypothesis HJC : forall i, (i < n)%nat -> rsum n (fun k => Rabs (unit_ i k - JC i k)) <= 1 / 2.
Hypothesis HF0 : forall i, (i < n)%nat -> Rabs (rsum n (fun m => C i m * F0 m)) <= e0.
Hypothesis HC : forall i, (i < n)%nat -> rsum n (fun m => Rabs (C i m)) <= c.
Hypothesis HB : forall m d, (m < n)%nat -> box n r d -> Rabs (B m d) <= INR n * r * r.
Hypothesis HB2 : forall m d e s, (m < n)%nat -> box n r d -> box n r e -> box n s (fun i => d i - e i) ->
  Rabs (B m d - B m e) <= 2 * INR n * r * s.
Hypothesis Hin : e0 + k1 * r + c * (INR n * r * r) <= r.
Hypothesis Hco : k1 + c * (2 * INR n * r) <= 1 / 2.
Definition val (d : nat -> R) (m : nat) : R := F0 m + rsum n (fun k => J m k * d k) + B m d.
Definition step (d : nat -> R) (i : nat) : R :=
  rsum n (fun k => (unit_ i k - CJ i k) * d k) - rsum n (fun m => C i m * F0 m) - rsum n (fun m => C i m * B m d).

Lemma rsum_unit m (f : nat -> R) i : (i < m)%nat -> rsum m (fun k => unit_ i k * f k) = f i.
Proof.
  induction m; intro H; [lia|]. cbn [rsum]. unfold unit_ at 2. destruct (Nat.eqb_spec i m) as [->|Q].
  - rewrite rsum_zero; [ring|]. intros k Hk. unfold unit_. destruct (Nat.eqb_spec m k); [lia|ring].
  - rewrite IHm by lia. ring.
Qed.

Lemma weighted_bound m (w f : nat -> R) a b : (forall k, (k < m)%nat -> Rabs (f k) <= b) -> rsum m (fun k => Rabs (w k)) <= a -> 0 <= b ->
  Rabs (rsum m (fun k => w k * f k)) <= a * b.
Proof.
  intros Hf Hw Hb. eapply Rle_trans; [apply rsum_abs|]. eapply Rle_trans with (rsum m (fun k => Rabs (w k) * b)).
  - apply rsum_le. intros k Hk. rewrite Rabs_mult. apply Rmult_le_compat_l; [apply Rabs_pos|auto].
  - rewrite rsum_scal_r. apply Rmult_le_compat_r; auto.
Qed.

Lemma CF_split d i : (i < n)%nat -> rsum n (fun m => C i m * val d m) = d i - step d i.
Proof.
  intro Hi. unfold val, step.
  assert (E1 : rsum n (fun m => C i m * (F0 m + rsum n (fun k => J m k * d k) + B m d)) =
               rsum n (fun m => C i m * F0 m) + rsum n (fun m => C i m * rsum n (fun k => J m k * d k)) + rsum n (fun m => C i m * B m d)).
  { rewrite <- !rsum_plus. apply rsum_ext. intros. ring. }
  assert (E2 : rsum n (fun m => C i m * rsum n (fun k => J m k * d k)) = rsum n (fun k => CJ i k * d k)).
  { rewrite (rsum_ext n _ (fun m => rsum n (fun k => C i m * J m k * d k))).
    2:{ intros m _. rewrite <- rsum_scal. apply rsum_ext. intros. ring. }
    rewrite rsum_swap. apply rsum_ext. intros k _. unfold CJ. rewrite <- rsum_scal_r. reflexivity. }
  assert (E3 : rsum n (fun k => (unit_ i k - CJ i k) * d k) = d i - rsum n (fun k => CJ i k * d k)).
  { rewrite <- (rsum_unit n d i Hi), <- rsum_minus. apply rsum_ext. intros. ring. }
  rewrite E1, E2, E3. ring.
Qed.

Lemma step_box d : box n r d -> box n r (step d).
Proof.
  intros Hd i Hi. unfold step.
  pose proof (weighted_bound n (fun k => unit_ i k - CJ i k) d k1 r Hd (HCJ i Hi) Hr) as A1.
  pose proof (HF0 i Hi) as A2.
  assert (PN : 0 <= INR n) by apply pos_INR.
  pose proof (weighted_bound n (C i) (fun m => B m d) c (INR n * r * r) (fun m Hm => HB m d Hm Hd) (HC i Hi) ltac:(apply Rmult_le_pos; [apply Rmult_le_pos|]; lra)) as A3.
  cbn beta in A1, A3.
  set (u := rsum n (fun k => (unit_ i k - CJ i k) * d k)) in *. set (v := rsum n (fun m => C i m * F0 m)) in *.
  set (w := rsum n (fun m => C i m * B m d)) in *.
  replace (u - v - w) with (u + (- v + - w)) by ring.
  eapply Rle_trans; [apply Rabs_triang|]. pose proof (Rabs_triang (- v) (- w)) as A4. rewrite !Rabs_Ropp in A4. lra.
Qed.

Lemma step_con d e s : box n r d -> box n r e -> box n s (fun i => d i - e i) -> box n (s / 2) (fun i => step d i - step e i).
Proof.
  intros Hd He Hs i Hi.
  assert (Ps : 0 <= s) by (eapply Rle_trans; [apply Rabs_pos|apply (Hs i Hi)]).
  pose proof (weighted_bound n (fun k => unit_ i k - CJ i k) (fun k => d k - e k) k1 s Hs (HCJ i Hi) Ps) as A1.
  assert (PN : 0 <= INR n) by apply pos_INR.
  pose proof (weighted_bound n (C i) (fun m => B m d - B m e) c (2 * INR n * r * s) (fun m Hm => HB2 m d e s Hm Hd He Hs) (HC i Hi)
                ltac:(apply Rmult_le_pos; [apply Rmult_le_pos|]; lra)) as A3.
  cbn beta in A1, A3.
  assert (E : step d i - step e i = rsum n (fun k => (unit_ i k - CJ i k) * (d k - e k)) - rsum n (fun m => C i m * (B m d - B m e))).
  { unfold step.
    rewrite (rsum_ext n (fun k => (unit_ i k - CJ i k) * (d k - e k)) (fun k => (unit_ i k - CJ i k) * d k - (unit_ i k - CJ i k) * e k)) by (intros; ring).
    rewrite (rsum_ext n (fun m => C i m * (B m d - B m e)) (fun m => C i m * B m d - C i m * B m e)) by (intros; ring).
    rewrite !rsum_minus. ring. }
  cbn beta. rewrite E. eapply Rle_trans; [apply Rabs_triang|]. rewrite Rabs_Ropp.
  assert (k1 * s + c * (2 * INR n * r * s) <= s / 2); [|lra].
  replace (k1 * s + c * (2 * INR n * r * s)) with ((k1 + c * (2 * INR n * r)) * s) by ring.
  replace (s / 2) with (1 / 2 * s) by field. apply Rmult_le_compat_r; lra.
Qed.

Lemma C_inj (y : nat -> R) : (forall i, (i < n)%nat -> rsum n (fun m => C i m * y m) = 0) -> forall m, (m < n)%nat -> y m = 0.
Proof.
  intro H.
  assert (S1 : forall m, (m < n)%nat -> y m = rsum n (fun l => (unit_ m l - JC m l) * y l)).
  { intros m Hm.
    assert (E : rsum n (fun l => JC m l * y l) = 0).
    { rewrite (rsum_ext n _ (fun l => rsum n (fun k => J m k * (C k l * y l)))).
      2:{ intros l _. unfold JC. rewrite <- rsum_scal_r. apply rsum_ext. intros. ring. }
      rewrite rsum_swap. rewrite (rsum_ext n _ (fun k => J m k * rsum n (fun l => C k l * y l))).
      2:{ intros k _. rewrite <- rsum_scal. reflexivity. }
      apply rsum_zero. intros k Hk. rewrite (H k Hk). ring. }
    rewrite (rsum_ext n (fun l => (unit_ m l - JC m l) * y l) (fun l => unit_ m l * y l - JC m l * y l)) by (intros; ring).
    rewrite rsum_minus, E, rsum_unit by exact Hm. ring. }
  set (b := rsum n (fun l => Rabs (y l))).
  assert (Pb : 0 <= b) by (apply rsum_nonneg; intros; apply Rabs_pos).
  assert (S2 : forall k m, (m < n)%nat -> Rabs (y m) <= b * (1 / 2) ^ k).
  { induction k; intros m Hm.
    - cbn [pow]. rewrite Rmult_1_r. unfold b. clear -Hm. generalize dependent m. induction n; intros m Hm; [lia|].
      cbn [rsum]. destruct (Nat.eq_dec m n0) as [->|Q].
      + assert (0 <= rsum n0 (fun l => Rabs (y l))) by (apply rsum_nonneg; intros; apply Rabs_pos). lra.
      + pose proof (IHn0 m ltac:(lia)). pose proof (Rabs_pos (y n0)). lra.
    - rewrite (S1 m Hm). replace (b * (1 / 2) ^ S k) with (1 / 2 * (b * (1 / 2) ^ k)) by (cbn [pow]; ring).
      apply (weighted_bound n (fun l => unit_ m l - JC m l) y (1 / 2) (b * (1 / 2) ^ k) IHk (HJC m Hm)).
      apply Rmult_le_pos; [lra|]. apply pow_le. lra. }
  intros m Hm. assert (Z : Rabs (y m) <= 0).
  { apply (small_half _ _ b). intro k. rewrite Rplus_0_l. apply S2, Hm. }
  destruct (Req_dec (y m) 0) as [Q|Q]; [exact Q|]. apply Rabs_pos_lt in Q. lra.
Qed.

Theorem zero_near : exists d, box n r d /\ forall m, (m < n)%nat -> val d m = 0.
Proof.
  destruct (fixed_point n step r Hr step_box step_con) as (d & Hd & Fd).
  exists d. split; [exact Hd|]. apply C_inj. intros i Hi. rewrite (CF_split d i Hi), (Fd i Hi). ring.
Qed.
End Newton.
