(** * P_Stable: how far a composition moves when the stored coefficients move. *)
Require Import List Bool Arith ZArith QArith Qreals Lia Reals Lra Psatz.
Require Import ZifyBool.
Require Import Verif.M_Base Verif.M_Wavelet Verif.M_Buffer Verif.M_Real Verif.P_Base Verif.P_Wavelet Verif.P_Buffer.
Require Import Verif.S_Exact Verif.S_Round Verif.P_Sum Verif.P_Lin Verif.P_PR Verif.P_L2 Verif.P_Rec Verif.P_Rel Verif.P_Round Verif.P_Round2.
Import ListNotations.
Open Scope R_scope.

(** ** square roots of sums of squares *)
Lemma sqrt_le_by a b : 0 <= b -> a <= b * b -> sqrt a <= b.
Proof. intros Hb H. rewrite <- (sqrt_square b) by auto. apply sqrt_le_1_alt. auto. Qed.
Lemma hyp_mono a b d : 0 <= a <= b -> sqrt (sq a + d) <= sqrt (sq b + d).
Proof. intros [Ha H]. apply sqrt_le_1_alt. apply Rplus_le_compat_r. unfold sq. apply Rmult_le_compat; auto. Qed.
Lemma hyp_shift a b d : 0 <= a -> 0 <= b -> 0 <= d -> sqrt (sq (a + b) + d) <= a + sqrt (sq b + d).
Proof.
  intros Ha Hb Hd. assert (0 <= sq b) by apply sq_pos.
  assert (Hs : b <= sqrt (sq b + d)).
  { rewrite <- (sqrt_square b) at 1 by auto. apply sqrt_le_1_alt. unfold sq. lra. }
  assert (Hq : sqrt (sq b + d) * sqrt (sq b + d) = sq b + d) by (apply sqrt_sqrt; lra).
  pose proof (sqrt_pos (sq b + d)). apply sqrt_le_by; [lra|].
  set (q := sqrt (sq b + d)) in *. unfold sq in *.
  assert (a * b <= a * q) by (apply Rmult_le_compat_l; auto).
  replace ((a + q) * (a + q)) with (a * a + 2 * (a * q) + q * q) by ring. rewrite Hq.
  replace ((a + b) * (a + b)) with (a * a + 2 * (a * b) + b * b) by ring. lra.
Qed.
Lemma hyp_scale c v d : 1 <= c -> 0 <= v -> 0 <= d -> sqrt (sq (c * sqrt v) + d) <= c * sqrt (v + d).
Proof.
  intros Hc Hv Hd. pose proof (sqrt_pos (v + d)).
  apply sqrt_le_by; [apply Rmult_le_pos; lra|].
  unfold sq. replace (c * sqrt v * (c * sqrt v)) with (c * c * (sqrt v * sqrt v)) by ring.
  replace (c * sqrt (v + d) * (c * sqrt (v + d))) with (c * c * (sqrt (v + d) * sqrt (v + d))) by ring.
  rewrite !sqrt_sqrt by lra. assert (1 <= c * c) by nra. nra.
Qed.

(** ** energy of four quadrants *)
Lemma joined_energy2 h w l d0 d1 d2 :
  rsum2 (h + h) (w + w) (fun i j => sq (joined h w l d0 d1 d2 i j)) =
  rsum2 h w (fun i j => sq (l i j)) + rsum2 h w (fun i j => sq (d0 i j)) +
  rsum2 h w (fun i j => sq (d1 i j)) + rsum2 h w (fun i j => sq (d2 i j)).
Proof.
  assert (Q : forall f : nat -> nat -> R, rsum2 (h + h) (w + w) f =
    rsum2 h w f + rsum2 h w (fun i j => f (h + i)%nat j) +
    rsum2 h w (fun i j => f i (w + j)%nat) + rsum2 h w (fun i j => f (h + i)%nat (w + j)%nat)).
  { intros f. unfold rsum2. rewrite rsum_split.
    rewrite (rsum_ext h (fun i => rsum (w + w) (fun j => f i j)) (fun i => rsum w (fun j => f i j) + rsum w (fun j => f i (w + j)%nat)))
      by (intros; apply rsum_split).
    rewrite (rsum_ext h (fun i => rsum (w + w) (fun j => f (h + i)%nat j))
       (fun i => rsum w (fun j => f (h + i)%nat j) + rsum w (fun j => f (h + i)%nat (w + j)%nat)))
      by (intros; apply (rsum_split w w)).
    rewrite !rsum_plus. ring. }
  rewrite Q. unfold joined.
  f_equal; [f_equal; [f_equal|]|]; apply rsum2_ext; intros i j Hi Hj;
    repeat match goal with |- context [Nat.ltb ?a ?b] => destruct (Nat.ltb_spec a b); [|] end; try lia;
    try (f_equal; f_equal; lia); try (do 2 f_equal; lia).
  all: f_equal; try replace (h + i - h)%nat with i by lia; try replace (w + j - w)%nat with j by lia; reflexivity.
Qed.
Lemma joined_energy1 h l d0 d1 d2 :
  rsum2 (h + h) 1 (fun i j => sq (joined h 1 l d0 d1 d2 i j)) =
  rsum2 h 1 (fun i j => sq (l i j)) + rsum2 h 1 (fun i j => sq (d0 i j)).
Proof.
  unfold rsum2. rewrite rsum_split. f_equal; apply rsum_ext; intros i Hi; apply rsum_ext; intros j Hj; unfold joined;
    repeat match goal with |- context [Nat.ltb ?a ?b] => destruct (Nat.ltb_spec a b); [|] end; try lia.
  - reflexivity.
  - replace (h + i - h)%nat with i by lia. reflexivity.
Qed.

Section Round.
Variables (u eta : R) (A : Arith R).
Hypothesis (HR : rounding u eta A) (Hu : 0 <= u) (Heta : 0 <= eta).
Variable g : geom.
Hypothesis G : gwf g.
Notation t := (gt g).
Notation K := (gK g).
Notation N2 s := (nrm (hs g s) (ws g s)).
Notation apA := (@ap R A g).
Notation rcA := (@rc R A g).
Notation a := (stepg u g).
Notation kp := (kap u eta g).

Variables (ch0 ch : decomposition R) (x : nat -> nat -> R).
Hypothesis H0 : holdsA A g ch0 x.

(** what moved *)
Definition df (k i j : nat) : R := @chf R A ch k i j - @chf R A ch0 k i j.
Definition dl2 (s : nat) : R :=
  rsum (gspw g) (fun b => rsum2 (hs g (S s)) (ws g (S s)) (fun i j => sq (df (s * gspw g + b) i j))).
Fixpoint moved (it : nat) : R :=
  match it with
  | O => rsum2 (hs g K) (ws g K) (fun i j => sq (df (K * gspw g) i j))
  | S it' => moved it' + dl2 (K - S it')
  end.
Lemma dl2_pos s : 0 <= dl2 s.
Proof. apply rsum_nonneg. intros. apply rsum2_sq_pos. Qed.
Lemma moved_pos it : 0 <= moved it.
Proof. induction it; cbn [moved]; [apply rsum2_sq_pos|]. pose proof (dl2_pos (K - S it)). lra. Qed.

Lemma jd_norm s dl : (s < K)%nat ->
  N2 s (joined (hs g (S s)) (ws g (S s)) dl (df (s * gspw g + 0)) (df (s * gspw g + 1)) (df (s * gspw g + 2))) =
  sqrt (sq (N2 (S s) dl) + dl2 s).
Proof.
  intros Hs. rewrite nrm_sq. unfold nrm, dl2. f_equal.
  pose proof (hs_step g s G Hs) as (Hh & _). rewrite Hh. replace (2 * hs g (S s))%nat with (hs g (S s) + hs g (S s))%nat by lia.
  destruct (gdim_cases g G) as [E|E].
  - rewrite !(ws_1 g _ E). rewrite joined_energy1. unfold gspw. rewrite E. cbn [Nat.eqb rsum]. ring.
  - pose proof (ws_step g s G E Hs) as (Hw & _). rewrite Hw.
    replace (2 * ws g (S s))%nat with (ws g (S s) + ws g (S s))%nat by lia.
    rewrite joined_energy2. rewrite (spw_2 g E). cbn [rsum]. ring.
Qed.

Lemma join_moved s low i j : (s < K)%nat -> (i < hs g s)%nat -> (j < ws g s)%nat ->
  joined (hs g (S s)) (ws g (S s)) low (@chf R A ch (s * gspw g + 0)) (@chf R A ch (s * gspw g + 1)) (@chf R A ch (s * gspw g + 2)) i j =
  @ANA R A g s (apA x s) i j +
  joined (hs g (S s)) (ws g (S s)) (fun i j => low i j - apA x (S s) i j)
     (df (s * gspw g + 0)) (df (s * gspw g + 1)) (df (s * gspw g + 2)) i j.
Proof.
  intros Hs Hi Hj. pose proof (joinA A g G ch0 x s low i j H0 Hs Hi Hj) as J.
  rewrite <- (Rplus_0_r (joined _ _ low _ _ _ i j)).
  apply (f_equal (fun r => r + (joined (hs g (S s)) (ws g (S s)) (fun _ _ => 0)
     (df (s * gspw g + 0)) (df (s * gspw g + 1)) (df (s * gspw g + 2)) i j))) in J.
  revert J. unfold joined, df.
  destruct (Nat.ltb j (ws g (S s))), (Nat.ltb i (hs g (S s))); intros J; lra.
Qed.

Lemma moved_step it : (it < K)%nat ->
  let s := (K - S it)%nat in
  N2 s (fun i j => rcA ch (S it) i j - apA x s i j) <=
  a * sqrt (sq (N2 (S s) (fun i j => rcA ch it i j - apA x (S s) i j)) + dl2 s)
  + (a * a - 1) * N2 s (apA x s) + (a + 1) * kp.
Proof.
  intros Hit s. assert (Hs : (s < K)%nat) by (unfold s; lia).
  pose proof (level_le g G s Hs) as [L1 L2].
  set (dl := fun i j => rcA ch it i j - apA x (S s) i j).
  set (jd := joined (hs g (S s)) (ws g (S s)) dl (df (s * gspw g + 0)) (df (s * gspw g + 1)) (df (s * gspw g + 2))).
  set (xs := apA x s). set (y := @ANA R A g s xs).
  set (z := joined (hs g (S s)) (ws g (S s)) (rcA ch it) (@chf R A ch (s * gspw g + 0)) (@chf R A ch (s * gspw g + 1)) (@chf R A ch (s * gspw g + 2))).
  assert (Ez : forall i j, (i < hs g s)%nat -> (j < ws g s)%nat -> z i j = y i j + jd i j)
    by (intros; apply join_moved; auto).
  assert (Nj : N2 s jd = sqrt (sq (N2 (S s) dl) + dl2 s)) by (apply jd_norm; auto).
  rewrite (nrm_ext _ _ _ (fun i j => (@SYN R A g s z i j - Sys g s z i j) +
     (Sys g s jd i j + (Sys g s (fun i j => y i j - Ans g s xs i j) i j + (Sys g s (Ans g s xs) i j - xs i j))))).
  2:{ intros i j Hi Hj. cbn [rc]. fold s. rewrite (syn_join g G) by auto. fold z. fold xs.
      rewrite Sys_minus.
      assert (E : Sys g s z i j = Sys g s y i j + Sys g s jd i j).
      { unfold Sys. rewrite (Sy_ext _ _ _ _ z (fun i j => 1 * y i j + 1 * jd i j)) by (intros; rewrite Ez by auto; ring).
        rewrite Sy_lin. ring. }
      rewrite E. ring. }
  eapply Rle_trans; [apply nrm_triang|].
  eapply Rle_trans; [apply Rplus_le_compat_l, nrm_triang|].
  eapply Rle_trans; [apply Rplus_le_compat_l, Rplus_le_compat_l, nrm_triang|].
  pose proof (syn_err u eta A HR Hu Heta g G s z Hs) as B1. pose proof (Sys_nrm g G s jd Hs) as B2.
  pose proof (Sys_nrm g G s (fun i j => y i j - Ans g s xs i j) Hs) as B3.
  pose proof (ana_err u eta A HR Hu Heta g G s xs Hs) as B4. fold y in B4.
  assert (B5 : N2 s (fun i j => Sys g s (Ans g s xs) i j - xs i j) <= (gain g - 1) * N2 s xs)
    by exact (SyAn_near (hs g s) (ws g s) _ _ _ _ (near_h g G s Hs) (near_w g G s Hs) (eps_pos t) (epsW_pos g) xs).
  assert (B6 : N2 s z <= N2 s y + N2 s jd).
  { rewrite (nrm_ext _ _ z (fun i j => y i j + jd i j)) by auto. apply nrm_triang. }
  pose proof (ANA_nrm u eta A HR Hu Heta g G s xs Hs) as B7. fold y in B7.
  pose proof (gain_1 g) as G1. pose proof (gain_stepg u Hu g) as GS. pose proof (kap_0 u eta Hu Heta g) as K0.
  rewrite <- Nj.
  set (X := N2 s xs) in *. set (Y := N2 s y) in *. set (Z := N2 s z) in *. set (E := N2 s jd) in *.
  set (D := N2 s (fun i j => y i j - Ans g s xs i j)) in *.
  assert (HX : 0 <= X) by apply nrm_pos.
  assert ((a - gain g) * Z <= (a - gain g) * (a * X + kp + E)) by (apply Rmult_le_compat_l; lra).
  assert (gain g * D <= gain g * ((a - gain g) * X + kp)) by (apply Rmult_le_compat_l; lra).
  assert ((gain g - 1) * X <= (gain g * gain g - 1) * X) by (apply Rmult_le_compat_r; auto; nra).
  apply Rle_trans with ((a - gain g) * (a * X + kp + E) + kp +
     (gain g * E + (gain g * ((a - gain g) * X + kp) + (gain g * gain g - 1) * X))); [lra|].
  apply Req_le. ring.
Qed.

Lemma moved_err it : (it <= K)%nat ->
  N2 (K - it)%nat (fun i j => rcA ch it i j - apA x (K - it) i j) <=
  (a ^ (2 * it) - 1) * N2 (K - it)%nat (apA x (K - it)) + 2 * INR it * a ^ (2 * it) * kp + a ^ it * sqrt (moved it).
Proof.
  pose proof (stepg_1 u Hu g) as S1. pose proof (kap_0 u eta Hu Heta g) as K0. induction it as [|it IH]; intros Hit.
  - rewrite Nat.sub_0_r. cbn [rc moved]. simpl pow. simpl INR.
    rewrite (nrm_ext _ _ _ (df (K * gspw g))).
    + apply Req_le. unfold nrm. ring.
    + intros i j Hi Hj. unfold df. destruct H0 as [_ HD]. rewrite HD by auto. reflexivity.
  - specialize (IH ltac:(lia)). pose proof (moved_step it ltac:(lia)) as ST. cbv zeta in ST.
    cbn [moved]. set (s := (K - S it)%nat) in *.
    replace (K - it)%nat with (S s) in IH by (unfold s; lia).
    assert (Hs : (s < K)%nat) by (unfold s; lia).
    pose proof (apA_nrm u eta A HR Hu Heta g G x s Hs) as B3.
    pose proof (nrm_pos (hs g s) (ws g s) (apA x s)) as Hx.
    pose proof (nrm_pos (hs g (S s)) (ws g (S s)) (apA x (S s))) as Hx1.
    pose proof (nrm_pos (hs g (S s)) (ws g (S s)) (fun i j => rcA ch it i j - apA x (S s) i j)) as HE.
    pose proof (dl2_pos s) as Hd. pose proof (moved_pos it) as Hm.
    set (E := N2 (S s) (fun i j => rcA ch it i j - apA x (S s) i j)) in *.
    set (X := N2 s (apA x s)) in *. set (X1 := N2 (S s) (apA x (S s))) in *.
    eapply Rle_trans; [exact ST|].
    replace (2 * S it)%nat with (S (S (2 * it))) by lia. cbn [pow]. rewrite S_INR.
    assert (P1 : 1 <= a ^ (2 * it)) by (apply pow_R1_Rle; auto).
    assert (Q1 : 1 <= a ^ it) by (apply pow_R1_Rle; auto).
    set (P := a ^ (2 * it)) in *. set (Q := a ^ it) in *. set (n := INR it) in *. set (V := moved it) in *. set (d := dl2 s) in *.
    set (c := a) in *. set (k := kp) in *.
    assert (Hn : 0 <= n) by apply pos_INR.
    assert (HP1 : (P - 1) * X1 <= (P - 1) * (c * X + k)) by (apply Rmult_le_compat_l; lra).
    set (B := (P - 1) * (c * X + k) + 2 * n * P * k).
    assert (HB : 0 <= B).
    { unfold B. apply Rplus_le_le_0_compat.
      - apply Rmult_le_pos; [lra|]. apply Rplus_le_le_0_compat; auto. apply Rmult_le_pos; lra.
      - apply Rmult_le_pos; auto. apply Rmult_le_pos; lra. }
    assert (HQV : 0 <= Q * sqrt V) by (apply Rmult_le_pos; [lra|apply sqrt_pos]).
    assert (HE' : E <= B + Q * sqrt V) by (unfold B; lra).
    assert (HH : sqrt (sq E + d) <= B + Q * sqrt (V + d)).
    { eapply Rle_trans; [apply (hyp_mono E (B + Q * sqrt V)); auto|].
      eapply Rle_trans; [apply hyp_shift; auto|]. apply Rplus_le_compat_l. apply hyp_scale; auto. }
    assert (HcH : c * sqrt (sq E + d) <= c * (B + Q * sqrt (V + d))) by (apply Rmult_le_compat_l; lra).
    apply Rle_trans with (c * (B + Q * sqrt (V + d)) + (c * c - 1) * X + (c + 1) * k); [lra|].
    unfold B.
    assert (EQ : c * ((P - 1) * (c * X + k) + 2 * n * P * k + Q * sqrt (V + d)) + (c * c - 1) * X + (c + 1) * k =
       (c * (c * P) - 1) * X + (c * P + 1 + 2 * n * (c * P)) * k + c * Q * sqrt (V + d)) by ring.
    rewrite EQ. apply Rplus_le_compat_r. apply Rplus_le_compat_l. apply Rmult_le_compat_r; auto.
    assert (1 <= c * P) by nra.
    assert (c * P <= c * (c * P)) by (rewrite <- (Rmult_1_l (c * P)) at 1; apply Rmult_le_compat_r; lra).
    assert (2 * n * (c * P) <= 2 * n * (c * (c * P))) by (apply Rmult_le_compat_l; lra).
    apply Rle_trans with (c * (c * P) + c * (c * P) + 2 * n * (c * (c * P))); [lra|]. apply Req_le. ring.
Qed.

(** all of it *)
Lemma moved_all : moved K = rsum (K * gspw g) (fun k => rsum2 (hs g (S (k / gspw g))) (ws g (S (k / gspw g))) (fun i j => sq (df k i j)))
  + rsum2 (hs g K) (ws g K) (fun i j => sq (df (K * gspw g) i j)).
Proof.
  assert (E : forall it, (it <= K)%nat -> moved it = rsum it (fun i => dl2 (K - S i)) + moved 0).
  { induction it; intros Hit; [simpl; ring|]. cbn [moved rsum] in *. rewrite IHit by lia. ring. }
  rewrite E by lia. cbn [moved]. f_equal.
  rewrite (rsum_rev K). unfold dl2.
  rewrite (rsum_ext K _ (fun s => rsum (gspw g) (fun b => rsum2 (hs g (S s)) (ws g (S s)) (fun i j => sq (df (s * gspw g + b) i j))))).
  2:{ intros s Hs. replace (K - S (K - 1 - s))%nat with s by lia. reflexivity. }
  pose proof (spw_pos g) as Sp.
  assert (M : forall n (f : nat -> R), rsum (n * gspw g) f = rsum n (fun s => rsum (gspw g) (fun b => f (s * gspw g + b)%nat))).
  { induction n; intros f; [reflexivity|]. cbn [rsum]. rewrite <- IHn. replace (S n * gspw g)%nat with (n * gspw g + gspw g)%nat by lia.
    apply rsum_split. }
  rewrite M. apply rsum_ext. intros s Hs. apply rsum_ext. intros b Hb.
  replace ((s * gspw g + b) / gspw g)%nat with s; [reflexivity|].
  rewrite Nat.div_add_l, Nat.div_small by lia. lia.
Qed.
End Round.
