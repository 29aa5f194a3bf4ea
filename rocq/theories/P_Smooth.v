(** * P_Smooth: details of polynomial stretches *)
Require Import List Bool Arith ZArith QArith Qabs Qreals Lia Reals Lra.
Require Import Verif.M_Base Verif.M_Params Verif.M_Wavelet Verif.M_Buffer Verif.M_Real Verif.S_Params Verif.S_Padding Verif.S_Buffer Verif.S_Exact Verif.S_Round Verif.S_Daub.
Require Import Verif.P_Base Verif.P_Wavelet Verif.P_Buffer Verif.P_Impl Verif.P_Api Verif.P_Sum Verif.P_Lin Verif.P_PR Verif.P_L2 Verif.P_Rec Verif.P_Exact Verif.P_Round Verif.P_Daub Verif.P_Daub2 Verif.P_Poly.
Import ListNotations.
Open Scope R_scope.

Lemma Z10 t : (1 <= t <= 10)%Z -> In t [1; 2; 3; 4; 5; 6; 7; 8; 9; 10]%Z.
Proof. intro H. cbn [In]. lia. Qed.

Definition lof (t : Z) (k : nat) : R := nth k (@lo_r R exactR t) 0.
Definition hif (t : Z) (k : nat) : R := nth k (@hi_r R exactR t) 0.

Lemma abs_sums t : (1 <= t <= 10)%Z ->
  rsum (2 * Z.to_nat t) (fun k => Rabs (lof t k)) <= hsum t /\ rsum (2 * Z.to_nat t) (fun k => Rabs (hif t k)) <= hsum t.
Proof.
  intro Ht. pose proof sums as D. rewrite forallb_forall in D. pose proof (D t (Z10 t Ht)) as Hs.
  unfold sums_ok in Hs. rewrite !andb_true_iff in Hs. destruct Hs as [[[S1 S2] _] _]. unfold lof, hif. rewrite lo_up, hi_up.
  split.
  - rewrite (rsum_ext _ _ (fun k => up2 (Qabs (nth k (loQ t) 0%Q)))) by (intros; rewrite <- abs_up, nth_abs; reflexivity). apply up2_sum; auto.
  - rewrite (rsum_ext _ _ (fun k => up2 (Qabs (nth k (hiQ t) 0%Q)))) by (intros; rewrite <- abs_up, nth_abs; reflexivity). apply up2_sum; auto.
Qed.

(** the exact high-pass filter kills polynomials *)
Lemma high_kills N h c : daubechies N h -> (length c <= N)%nat ->
  rsum (2 * N) (fun k => (-1) ^ k * h (2 * N - 1 - k)%nat * peval c (INR k)) = 0.
Proof.
  intros (_ & M & _) L. destruct (Nat.eq_dec N 0) as [->|HN]; [reflexivity|].
  destruct (affine (-1) (INR (2 * N - 1)) c) as (c' & L' & E').
  assert (R : forall n (f : nat -> R), rsum n f = rsum n (fun k => f (n - 1 - k)%nat)).
  { clear. induction n; intro f; [reflexivity|].
    rewrite (rsum_ext (S n) (fun k => f (S n - 1 - k)%nat) (fun k => f (n - k)%nat)) by (intros; f_equal; lia).
    change (rsum (S n) (fun k => f (n - k)%nat)) with (rsum (1 + n) (fun k => f (n - k)%nat)). rewrite rsum_add. cbn [rsum].
    rewrite (IHn f), Nat.sub_0_r. rewrite (rsum_ext n (fun k => f (n - (1 + k))%nat) (fun k => f (n - 1 - k)%nat)) by (intros; f_equal; lia). ring. }
  rewrite R. specialize (M c' ltac:(lia)). rewrite total_rsum in M.
  rewrite (rsum_ext _ _ (fun k => - ((-1) ^ k * h k * peval c' (INR k)))).
  - rewrite (rsum_ext _ _ (fun k => -1 * ((-1) ^ k * h k * peval c' (INR k)))) by (intros; ring). rewrite rsum_scal, M. ring.
  - intros k Hk. replace (2 * N - 1 - (2 * N - 1 - k))%nat with k by lia. rewrite E'.
    replace (-1 * INR k + INR (2 * N - 1)) with (INR (2 * N - 1 - k)) by (rewrite !minus_INR by lia; ring).
    assert (A : (-1) ^ (2 * N - 1 - k) = - (-1) ^ k).
    { assert (Q : (-1) ^ (2 * N - 1 - k) * ((-1) ^ k * (-1)) = 1).
      { replace ((-1) ^ k * (-1)) with ((-1) ^ (k + 1)) by (rewrite pow_add; cbn [pow]; ring). rewrite <- pow_add.
        replace (2 * N - 1 - k + (k + 1))%nat with (2 * N)%nat by lia. apply pow_1_even. }
      assert (Q2 : (-1) ^ k * (-1) ^ k = 1) by (rewrite <- pow_add; replace (k + k)%nat with (2 * k)%nat by lia; apply pow_1_even). nra. }
    rewrite A. ring.
Qed.

Lemma mv_taps t n n2 y i : (1 <= t <= 10)%Z -> n = (2 * n2)%nat -> (i < n2)%nat -> (2 * i + 2 * Z.to_nat t <= n)%nat ->
  mv n (HM t n) y i = rsum (2 * Z.to_nat t) (fun k => lof t k * y (2 * i + k)%nat) /\
  mv n (HM t n) y (n2 + i) = rsum (2 * Z.to_nat t) (fun k => hif t k * y (2 * i + k)%nat).
Proof.
  intros Ht -> Hi Hn. destruct (lens_t t Ht) as [L1 L2]. unfold HM.
  destruct (AM_A (@lo_r R exactR t) (@hi_r R exactR t) n2 y i Hi) as [-> ->]. rewrite L1, L2.
  split; apply rsum_ext; intros k Hk; rewrite Nat.mod_small by lia; reflexivity.
Qed.

Section S.
Variable p : params.
Hypothesis HA : accepted p.
Let g := geom_of p.
Let Gw : gwf g := geom_wf p HA.
Let t := wtype p.
Let N := Z.to_nat t.

Lemma K_p s : (s < nsteps p)%nat -> (s < gK g)%nat.
Proof. unfold g. rewrite (K_nsteps p HA). auto. Qed.
Lemma t_p : gt g = t. Proof. symmetry. apply (geom_t p HA). Qed.
Lemma range_p s : (s < gK g)%nat -> (1 <= t <= 10)%Z.
Proof. intro Hs. rewrite <- t_p. apply (gt_range g s Gw Hs). Qed.
Lemma hs_pow s : (s <= gK g)%nat -> hs g 0 = (2 ^ s * hs g s)%nat.
Proof.
  induction s; intro H; [cbn [Nat.pow]; lia|]. rewrite IHs by lia. destruct (hs_step g s Gw ltac:(lia)) as [E _]. rewrite E. cbn [Nat.pow]. lia.
Qed.
Lemma ws_pow s : gdim g = 2%nat -> (s <= gK g)%nat -> ws g 0 = (2 ^ s * ws g s)%nat.
Proof.
  intro E2. induction s; intro H; [cbn [Nat.pow]; lia|]. rewrite IHs by lia. destruct (ws_step g s Gw E2 ltac:(lia)) as [E _]. rewrite E. cbn [Nat.pow]. lia.
Qed.

(** places of level s whose samples lie between a and b *)
Definition within (a b s i : nat) : Prop := (a <= 2 ^ s * i)%nat /\ (last_used N s i <= b)%nat.
Lemma within_down a b s i k : within a b (S s) i -> (k < 2 * N)%nat -> within a b s (2 * i + k).
Proof.
  unfold within, last_used. intros (H1 & H2) Hk. cbn [Nat.pow] in *.
  assert (P : (1 <= 2 ^ s)%nat) by (clear; induction s; cbn [Nat.pow]; lia).
  replace (2 * 2 ^ s - 1)%nat with ((2 ^ s - 1) + 2 ^ s)%nat in H2 by lia.
  rewrite Nat.mul_add_distr_r in H2. assert (2 ^ s * k <= 2 ^ s * (2 * N - 1))%nat by (apply Nat.mul_le_mono_l; lia).
  split; nia.
Qed.
Lemma within_lt a b s i n : (b < 2 ^ s * n)%nat -> within a b s i -> (i < n)%nat.
Proof. unfold within, last_used. intros Hb (_ & H). set (z := ((2 ^ s - 1) * (2 * N - 1))%nat) in H. clearbody z. assert (Q : (2 ^ s * i < 2 ^ s * n)%nat) by lia. clear -Q. nia. Qed.
Lemma within_self s i : within (2 ^ s * i) (last_used N s i) s i.
Proof. split; apply le_n. Qed.
Lemma used_within s i r : within (2 ^ s * i) (last_used N s i) 0 r <-> (first_used s i <= r <= last_used N s i)%nat.
Proof. unfold within, first_used, last_used. cbn [Nat.pow]. lia. Qed.

(** filtering with the high-pass filter in one direction *)
Definition gap_ : R := INR (2 * N) * printed_accuracy t.

Lemma near_high : (1 <= t <= 10)%Z -> exists hh, (forall k, (k < 2 * N)%nat -> Rabs (hif t k - hh k) <= printed_accuracy t) /\
  (forall c, (length c <= N)%nat -> rsum (2 * N) (fun k => hh k * peval c (INR k)) = 0).
Proof.
  intro Ht. destruct (near_daubechies t Ht) as (h & Dh & Hh). fold N in Dh, Hh. exists (fun k => (-1) ^ k * h (2 * N - 1 - k)%nat). split.
  - intros k Hk. apply Hh, Hk.
  - intros c Hc. apply high_kills; auto.
Qed.

Section Level.
Variables (x : nat -> nat -> R) (s i j : nat) (B : R).
Hypothesis Hs : (s < gK g)%nat.
Hypothesis (Hi : (i < hs g (S s))%nat) (Hj : (j < ws g (S s))%nat).
Hypothesis B0 : 0 <= B.
Hypothesis Wr : (last_used N (S s) i < hs g 0)%nat.
Let Rin := within (2 ^ S s * i) (last_used N (S s) i).
Let Ht := range_p s Hs.

Lemma row_lt s' i' : (s' <= s)%nat -> Rin s' i' -> (i' < hs g s')%nat.
Proof. intros H. apply within_lt. rewrite <- hs_pow by lia. exact Wr. Qed.
Lemma row_fit s' i' : (s' <= s)%nat -> Rin (S s') i' -> (i' < hs g (S s') /\ 2 * i' + 2 * N <= hs g s')%nat.
Proof.
  intros H R. assert (0 < N)%nat by (unfold N; pose proof Ht; lia).
  pose proof (row_lt s' (2 * i' + (2 * N - 1))%nat H (within_down _ _ _ _ (2 * N - 1) R ltac:(lia))) as L.
  destruct (hs_step g s' Gw ltac:(lia)) as [E _]. lia.
Qed.

Lemma details_1d : gdim g = 1%nat -> (exists c, (length c <= N)%nat /\ forall r, Rin 0 r -> x r 0%nat = peval c (INR r)) ->
  (forall r, Rin 0 r -> Rabs (x r 0%nat) <= B) ->
  Rabs (Ans g s (ap g x s) (hs g (S s) + i) j) <= gap_ * (hsum t ^ s * B).
Proof.
  intros E1 Px Bx. unfold Ans. rewrite t_p. rewrite (ws_1 g s E1). assert (J0 : j = 0%nat) by (pose proof Hj as Q; rewrite (ws_1 g (S s) E1) in Q; lia). replace j with 0%nat by lia.
  replace (WM g 1) with idm by (unfold WM; rewrite E1; reflexivity). rewrite An_1.
  destruct (hs_step g s Gw Hs) as [Eh _]. destruct (row_fit s i (le_n s) (within_self (S s) i)) as [_ Fi].
  destruct (mv_taps t (hs g s) (hs g (S s)) (fun i' => ap g x s i' 0%nat) i Ht Eh Hi Fi) as [_ ->]. fold N.
  destruct (near_high Ht) as (hh & H1 & H2). destruct (abs_sums t Ht) as [A1 _].
  set (cin := fun (_ q : nat) => q = 0%nat).
  pose proof (detail_bound N 1 1 s (lof t) (fun _ => 1) (hsum t) 1 B (ap g x) Rin cin) as D.
  assert (Q : Rabs (rsum (2 * N) (fun k => hif t k * rsum 1 (fun l => 1 * ap g x s (2 * i + k)%nat (1 * 0 + l)%nat)))
     <= INR (2 * N) * printed_accuracy t * (1 * ((hsum t * 1) ^ s * B))).
  { apply D with (g := hh); auto.
    - intros s' i' k Ri Hk. apply within_down; auto.
    - intros s' j' l Hc Hl. unfold cin in *. lia.
    - intros s' i' j' Hs' Ri Hc. unfold cin in Hc. subst j'. rewrite (ana_glue g Gw x s' i' 0%nat); [|lia|apply (row_fit s'); auto; lia|rewrite (ws_1 g (S s') E1); lia].
      unfold Ans. rewrite t_p, (ws_1 g s' E1). replace (WM g 1) with idm by (unfold WM; rewrite E1; reflexivity). rewrite An_1.
      destruct (row_fit s' i' ltac:(lia) Ri) as [Li Fi']. destruct (hs_step g s' Gw ltac:(lia)) as [Eh' _].
      destruct (mv_taps t (hs g s') (hs g (S s')) (fun i' => ap g x s' i' 0%nat) i' Ht Eh' Li Fi') as [-> _]. fold N.
      apply rsum_ext. intros k _. cbn [rsum]. cbn [Nat.mul Nat.add]. ring.
    - intros j' Hc. unfold cin in Hc. subst j'. exact Px.
    - intros r j' Hr Hc. unfold cin in Hc. subst j'. apply Bx, Hr.
    - cbn [rsum]. rewrite Rabs_R1. lra.
    - cbn [rsum]. rewrite Rabs_R1. lra.
    - intros k Hk. apply within_down; auto. apply within_self.
    - intros l Hl. unfold cin. lia. }
  rewrite (rsum_ext _ _ (fun k => hif t k * rsum 1 (fun l => 1 * ap g x s (2 * i + k)%nat (1 * 0 + l)%nat))).
  - eapply Rle_trans; [exact Q|]. unfold gap_. rewrite Rmult_1_r, Rmult_1_l. lra.
  - intros k _. cbn [rsum Nat.mul Nat.add]. ring.
Qed.

Section TwoD.
Hypothesis E2 : gdim g = 2%nat.
Hypothesis Wc : (last_used N (S s) j < ws g 0)%nat.
Let Cin := within (2 ^ S s * j) (last_used N (S s) j).
Lemma col_lt s' j' : (s' <= s)%nat -> Cin s' j' -> (j' < ws g s')%nat.
Proof. intros H. apply within_lt. rewrite <- ws_pow by (auto; lia). exact Wc. Qed.
Lemma col_fit s' j' : (s' <= s)%nat -> Cin (S s') j' -> (j' < ws g (S s') /\ 2 * j' + 2 * N <= ws g s')%nat.
Proof.
  intros H R. assert (0 < N)%nat by (unfold N; pose proof Ht; lia).
  pose proof (col_lt s' (2 * j' + (2 * N - 1))%nat H (within_down _ _ _ _ (2 * N - 1) R ltac:(lia))) as L.
  destruct (ws_step g s' Gw E2 ltac:(lia)) as [E _]. lia.
Qed.
Lemma WM_2 n : WM g n = HM t n.
Proof. unfold WM. rewrite E2, t_p. reflexivity. Qed.

(** one pass in each direction; rl, cl: low-pass in that direction *)
Lemma both (rl cl : bool) s' i' j' : (s' <= s)%nat -> Rin (S s') i' -> Cin (S s') j' ->
  Ans g s' (ap g x s') (if rl then i' else hs g (S s') + i')%nat (if cl then j' else ws g (S s') + j')%nat =
  rsum (2 * N) (fun k => (if rl then lof t else hif t) k * rsum (2 * N) (fun l => (if cl then lof t else hif t) l * ap g x s' (2 * i' + k)%nat (2 * j' + l)%nat)).
Proof.
  intros H Ri Ci. destruct (row_fit s' i' H Ri) as [Li Fi]. destruct (col_fit s' j' H Ci) as [Lj Fj].
  destruct (hs_step g s' Gw ltac:(lia)) as [Eh _]. destruct (ws_step g s' Gw E2 ltac:(lia)) as [Ew _].
  unfold Ans, An. rewrite WM_2, t_p.
  set (v := fun i' => mv (ws g s') (HM t (ws g s')) (ap g x s' i') (if cl then j' else ws g (S s') + j')%nat).
  assert (EV : forall a, v a = rsum (2 * N) (fun l => (if cl then lof t else hif t) l * ap g x s' a (2 * j' + l)%nat)).
  { intro a. unfold v. destruct (mv_taps t (ws g s') (ws g (S s')) (ap g x s' a) j' Ht Ew Lj Fj) as [M1 M2].
    destruct cl; [exact M1|exact M2]. }
  destruct (mv_taps t (hs g s') (hs g (S s')) v i' Ht Eh Li Fi) as [M1 M2].
  change (mv (hs g s') (HM t (hs g s')) v (if rl then i' else hs g (S s') + i')%nat =
    rsum (2 * N) (fun k => (if rl then lof t else hif t) k * rsum (2 * N) (fun l => (if cl then lof t else hif t) l * ap g x s' (2 * i' + k)%nat (2 * j' + l)%nat))).
  destruct rl; [rewrite M1|rewrite M2]; fold N; apply rsum_ext; intros k _; rewrite EV; reflexivity.
Qed.

Lemma level_step s' i' j' : (s' < s)%nat -> Rin (S s') i' -> Cin (S s') j' ->
  ap g x (S s') i' j' = rsum (2 * N) (fun k => lof t k * rsum (2 * N) (fun l => lof t l * ap g x s' (2 * i' + k)%nat (2 * j' + l)%nat)).
Proof.
  intros H Ri Ci. destruct (row_fit s' i' ltac:(lia) Ri) as [Li _]. destruct (col_fit s' j' ltac:(lia) Ci) as [Lj _].
  rewrite (ana_glue g Gw x s' i' j') by (auto; lia). apply (both true true s' i' j'); auto. lia.
Qed.

Lemma swap_sums n m (u w : nat -> R) (y : nat -> nat -> R) :
  rsum n (fun k => u k * rsum m (fun l => w l * y k l)) = rsum m (fun l => w l * rsum n (fun k => u k * y k l)).
Proof.
  rewrite (rsum_ext n _ (fun k => rsum m (fun l => w l * (u k * y k l)))) by (intros; rewrite <- rsum_scal; apply rsum_ext; intros; ring).
  rewrite rsum_swap. apply rsum_ext. intros l _. rewrite <- rsum_scal. reflexivity.
Qed.

Lemma tail_pow : gap_ * (hsum t * ((hsum t * hsum t) ^ s * B)) = gap_ * (hsum t ^ (2 * s + 1) * B).
Proof. rewrite (pow_add (hsum t)), pow_mult. cbn [pow]. rewrite !Rmult_1_r. ring. Qed.

Lemma details_columns (cl : bool) : (forall q, Cin 0 q -> exists c, (length c <= N)%nat /\ forall r, Rin 0 r -> x r q = peval c (INR r)) ->
  (forall r q, Rin 0 r -> Cin 0 q -> Rabs (x r q) <= B) ->
  Rabs (Ans g s (ap g x s) (hs g (S s) + i)%nat (if cl then j else ws g (S s) + j)%nat) <= gap_ * (hsum t ^ (2 * s + 1) * B).
Proof.
  intros Px Bx. pose proof (both false cl s i j (le_n s) (within_self (S s) i) (within_self (S s) j)) as E. cbn iota in E. rewrite E. clear E.
  rewrite <- tail_pow. destruct (near_high Ht) as (hh & H1 & H2). destruct (abs_sums t Ht) as [A1 A2].
  unfold gap_. apply (detail_bound N (2 * N) 2 s (lof t) (lof t) (hsum t) (hsum t) B (ap g x) Rin Cin) with (g := hh); auto.
  - intros s' i' k Ri Hk. apply within_down; auto.
  - intros s' i' k Ri Hk. apply within_down; auto.
  - apply level_step.
  - destruct cl; assumption.
  - intros k Hk. apply within_down; auto. apply within_self.
  - intros k Hk. apply within_down; auto. apply within_self.
Qed.

Lemma details_rows (rl : bool) : (forall r, Rin 0 r -> exists c, (length c <= N)%nat /\ forall q, Cin 0 q -> x r q = peval c (INR q)) ->
  (forall r q, Rin 0 r -> Cin 0 q -> Rabs (x r q) <= B) ->
  Rabs (Ans g s (ap g x s) (if rl then i else hs g (S s) + i)%nat (ws g (S s) + j)%nat) <= gap_ * (hsum t ^ (2 * s + 1) * B).
Proof.
  intros Px Bx. pose proof (both rl false s i j (le_n s) (within_self (S s) i) (within_self (S s) j)) as E. cbn iota in E. rewrite E. clear E.
  rewrite <- tail_pow. destruct (near_high Ht) as (hh & H1 & H2). destruct (abs_sums t Ht) as [A1 A2].
  rewrite swap_sums.
  unfold gap_. apply (detail_bound N (2 * N) 2 s (lof t) (lof t) (hsum t) (hsum t) B (fun s' a b => ap g x s' b a) Cin Rin) with (g := hh); auto.
  - intros s' i' k Ri Hk. apply within_down; auto.
  - intros s' i' k Ri Hk. apply within_down; auto.
  - intros s' a b Hs' Ca Rb. rewrite level_step by auto. apply swap_sums.
  - destruct rl; assumption.
  - intros k Hk. apply within_down; auto. apply within_self.
  - intros k Hk. apply within_down; auto. apply within_self.
Qed.
End TwoD.
End Level.

(** ** through the API *)
Lemma used_rows s i r : within (2 ^ S s * i) (last_used N (S s) i) 0 r <-> row_used p (S s) i r.
Proof. unfold row_used, taps. fold t. fold N. apply used_within. Qed.

Lemma stored m s b d : (s < nsteps p)%nat -> nth_error (dec_of p null_denoiser m) (s * bands p + b) = Some d -> (b < bands p)%nat ->
  forall i j, (i < level_rows p (S s))%nat -> (j < level_cols p (S s))%nat -> at_ d i j = Ans g s (ap g (padf p m) s) (offr b (hs g (S s)) i) (offc b (ws g (S s)) j).
Proof.
  intros Hs Hd Hb i j Hi Hj. pose proof (K_p s Hs) as HK.
  assert (Hb' : (b < gspw g)%nat) by (unfold g; rewrite (spw_bands p HA); exact Hb).
  assert (HE : nth_error (dec_pure g null_denoiser (padf p m)) (s * gspw g + b) = Some d) by (unfold g at 2; rewrite (spw_bands p HA); exact Hd).
  destruct (detf_some g (padf p m) s b Hb') as (f & Hf).
  pose proof (dec_pure_nth_detail g null_denoiser (padf p m) s b HK Hb') as E. rewrite Hf, HE in E. cbn [option_map] in E.
  rewrite null_apply in E by apply ws_1. inversion E; subst d.
  unfold g in Hi, Hj. rewrite <- (hs_level p HA) in Hi. rewrite <- (ws_level p HA) in Hj. fold g in Hi, Hj.
  rewrite at_mk by auto. apply det_glue; auto.
Qed.

Lemma dim_is : gdim g = if is_1d p then 1%nat else 2%nat.
Proof. unfold is_1d, g, geom_of. destruct (acc_cases p HA) as [(n & E & _)|(w & h & E & _)]; rewrite E; reflexivity. Qed.
Lemma bands_is : bands p = if is_1d p then 1%nat else 3%nat.
Proof. reflexivity. Qed.

Lemma smooth_one m s d bb i j B : shaped p m -> (s < nsteps p)%nat -> (bb < bands p)%nat ->
    nth_error (@dec_of p R exactR null_denoiser m) (s * bands p + bb) = Some d -> (i < level_rows p (S s))%nat -> (j < level_cols p (S s))%nat ->
    not_wrapped p (S s) i j -> 0 <= B -> bounded_there p m (S s) i j B ->
    polynomial_columns p m (S s) i j /\ bb <> 1%nat \/ polynomial_rows p m (S s) i j /\ bb <> 0%nat ->
    Rabs (at_ d i j) <= leftover p (S s) * B.
Proof.
  intros HSm Hs Hbb Hd Hi Hj (Wr & Wc) B0 Bd PP.
  rewrite (stored m s bb d Hs Hd Hbb i j Hi Hj).
  pose proof (K_p s Hs) as HK.
  rewrite <- (hs_level p HA) in Hi, Wr. rewrite <- (ws_level p HA) in Hj, Wc. fold g in Hi, Wr, Hj, Wc. unfold taps in Wr, Wc. fold t in Wr, Wc. fold N in Wr, Wc.
  assert (PD : forall r q, padf p m r q = padded_at p m r q) by (intros; apply padf_padded; auto; apply HSm).
  pose proof dim_is as DI. rewrite bands_is in Hbb. unfold leftover, taps, passes. fold t. fold N. fold (hsum t).
  unfold bounded_there, polynomial_columns, polynomial_rows, col_used in *. destruct (is_1d p) eqn:E1.
  - assert (bb = 0%nat) by lia. subst bb. destruct PP as [[PC _]|[_ Q]]; [|lia].
    change (offr 0 (hs g (S s)) i) with (hs g (S s) + i)%nat. change (offc 0 (ws g (S s)) j) with j.
    replace (1 * S s - 1)%nat with s by lia. rewrite (Rmult_assoc (INR (2 * N) * printed_accuracy t)).
    apply details_1d; auto.
    + destruct (PC 0%nat eq_refl) as (cc & Lc & Ec). exists cc. split; [exact Lc|]. intros r Rr. rewrite PD. apply Ec. apply used_rows, Rr.
    + intros r Rr. rewrite PD. apply Bd; auto. apply used_rows, Rr.
  - destruct Wc as [Wc|Wc]; [discriminate|].
    replace (2 * S s - 1)%nat with (2 * s + 1)%nat by lia. rewrite (Rmult_assoc (INR (2 * N) * printed_accuracy t)).
    assert (Bd' : forall r q, within (2 ^ S s * i) (last_used N (S s) i) 0 r -> within (2 ^ S s * j) (last_used N (S s) j) 0 q -> Rabs (padf p m r q) <= B).
    { intros r q Rr Cq. rewrite PD. apply Bd; [apply used_rows, Rr|apply used_within, Cq]. }
    destruct PP as [[PC NB]|[PR NB]].
    + assert (PC' : forall q, within (2 ^ S s * j) (last_used N (S s) j) 0 q -> exists c, (length c <= N)%nat /\
        forall r, within (2 ^ S s * i) (last_used N (S s) i) 0 r -> padf p m r q = peval c (INR r)).
      { intros q Cq. destruct (PC q ltac:(apply used_within, Cq)) as (cc & Lc & Ec). exists cc. split; [exact Lc|].
        intros r Rr. rewrite PD. apply Ec. apply used_rows, Rr. }
      destruct bb as [|[|[|bb]]]; try lia.
      * apply (details_columns (padf p m) s i j B HK Hi Hj B0 Wr DI Wc true PC' Bd').
      * apply (details_columns (padf p m) s i j B HK Hi Hj B0 Wr DI Wc false PC' Bd').
    + assert (PR' : forall r, within (2 ^ S s * i) (last_used N (S s) i) 0 r -> exists c, (length c <= N)%nat /\
        forall q, within (2 ^ S s * j) (last_used N (S s) j) 0 q -> padf p m r q = peval c (INR q)).
      { intros r Rr. destruct (PR r ltac:(apply used_rows, Rr)) as (cc & Lc & Ec). exists cc. split; [exact Lc|].
        intros q Cq. rewrite PD. apply Ec. apply used_within, Cq. }
      destruct bb as [|[|[|bb]]]; try lia.
      * apply (details_rows (padf p m) s i j B HK Hi Hj B0 Wr DI Wc true PR' Bd').
      * apply (details_rows (padf p m) s i j B HK Hi Hj B0 Wr DI Wc false PR' Bd').
Qed.

Section Api.
Variables (b : buffer R) (data : list (mat R)).
Hypothesis Hr : @reachable R exactR p b.
Hypothesis (Hsig : (1 <= signum p)%Z) (HL : Z.of_nat (length data) = signum p) (HS : Forall (shaped p) data).

Theorem smooth_details : exists b', @decompose R exactR b data null_denoiser = Ok (true, b') /\
  forall c m ch s d bb i j B, nth_error data c = Some m -> nth_error (bdec b') c = Some ch -> (s < nsteps p)%nat -> (bb < bands p)%nat ->
    nth_error ch (s * bands p + bb) = Some d -> (i < level_rows p (S s))%nat -> (j < level_cols p (S s))%nat ->
    not_wrapped p (S s) i j -> 0 <= B -> bounded_there p m (S s) i j B ->
    polynomial_columns p m (S s) i j /\ bb <> 1%nat \/ polynomial_rows p m (S s) i j /\ bb <> 0%nat ->
    Rabs (at_ d i j) <= leftover p (S s) * B.
Proof.
  eexists. split; [apply (dec_ok p HA); auto|]. intros c m ch s d bb i j B Hm Hc Hs Hbb Hd Hi Hj (Wr & Wc) B0 Bd PP.
  cbn [bdec] in Hc. rewrite nth_error_map, Hm in Hc. inversion Hc; subst ch; clear Hc.
  assert (HSm : shaped p m) by (rewrite Forall_forall in HS; apply HS; eapply nth_error_In; eauto).
  apply (smooth_one m s d bb i j B); auto. split; auto.
Qed.
End Api.
End S.
