(** * P_LocPrev: error of one sample of a reduced picture, independent of the size of the signal. *)
Require Import List Bool Arith ZArith QArith Qreals Lia Reals Lra Psatz.
Require Import ZifyBool.
Require Import Flocq.Core.Core Flocq.IEEE754.BinarySingleNaN.
Require Import Verif.M_Base Verif.M_Params Verif.M_Padding Verif.M_Wavelet Verif.M_Buffer Verif.M_Real Verif.M_Float Verif.M_Binary32.
Require Import Verif.S_Params Verif.S_Padding Verif.S_Buffer Verif.S_Exact Verif.S_Round Verif.S_Stable Verif.S_Local Verif.S_Preview Verif.S_LocPrev.
Require Import Verif.P_Base Verif.P_Wavelet Verif.P_Buffer Verif.P_Impl Verif.P_Api Verif.P_Api2.
Require Import Verif.P_Sum Verif.P_Lin Verif.P_PR Verif.P_L2 Verif.P_Rec Verif.P_Exact Verif.P_Round Verif.P_Round2 Verif.P_Round3.
Require Import Verif.P_Stable Verif.P_Stable2 Verif.P_Dual Verif.P_Dual2 Verif.P_Dual3 Verif.P_Acc Verif.P_Loc Verif.P_Loc2 Verif.P_Loc3 Verif.P_Loc4 Verif.P_Loc5.
Require Import Verif.P_Float Verif.P_Binary32 Verif.P_Bin2 Verif.P_Bin3 Verif.P_BinMove Verif.P_BinMove2 Verif.P_Loc6 Verif.P_Preview Verif.P_Preview2 Verif.P_Preview3.
Import ListNotations.

(** a sample above which coefficient c of level s stands *)
Lemma up_pick (D : nat -> nat -> nat -> Prop) (n : nat -> nat) (K : nat) :
  (forall s c, s < K -> c < n (S s) -> 2 * c < n s /\ D s c (2 * c))%nat ->
  (forall s c, s <= K -> c < n s -> 2 ^ s * c < n 0 /\ up D n (2 ^ s * c) s c)%nat.
Proof.
  intros HD. induction s as [|s IH]; intros c Hs Hc.
  - cbn [Nat.pow up]. rewrite Nat.mul_1_l. auto.
  - destruct (HD s c ltac:(lia) Hc) as [H1 H2]. destruct (IH (2 * c)%nat ltac:(lia) H1) as [I1 I2].
    replace (2 ^ S s * c)%nat with (2 ^ s * (2 * c))%nat by (cbn [Nat.pow]; lia). split; auto.
    cbn [up]. split; eauto.
Qed.

Open Scope R_scope.
Section Round.
Variables (u eta : R) (A : Arith R).
Hypothesis (HR : rounding u eta A) (Hu : 0 <= u) (Heta : 0 <= eta).
Section Geom.
Variable g : geom.
Hypothesis G : gwf g.
Notation K := (gK g).
Notation tt := (Z.to_nat (gt g)).
Notation apE := (@ap R exactR g).
Notation rcA := (@rc R A g).
Notation a := (stepg u g).
Notation kp := (kap u eta g).
Notation gn := (gain g).

Lemma rpick s c : (s < K)%nat -> (c < hs g (S s))%nat -> (2 * c < hs g s)%nat /\ rdep g s c (2 * c).
Proof.
  intros Hs Hc. pose proof (hs_step g s G Hs) as (Hh & _). pose proof (gt_range g s G Hs) as Ht.
  split; [lia|]. exists 0%nat. split; [lia|]. rewrite Nat.mod_small; lia.
Qed.
Lemma cpick s c : (s < K)%nat -> (c < ws g (S s))%nat -> (2 * c < ws g s)%nat /\ cdep g s c (2 * c).
Proof.
  intros Hs Hc. pose proof (gt_range g s G Hs) as Ht. destruct (gdim_cases g G) as [E|E].
  - rewrite !(ws_1 g _ E) in *. split; [lia|left; auto].
  - pose proof (ws_step g s G E Hs) as (Hw & _). split; [lia|]. right. exists 0%nat. split; [lia|]. rewrite Nat.mod_small; lia.
Qed.

Variables (ch0 ch : decomposition R) (x : nat -> nat -> R).
Hypothesis H0 : holdsA A g ch0 x.
Variables (B T T0 : R) (k : nat).
Hypothesis (HB : 0 <= B) (HT : 0 <= T) (HT0 : 0 <= T0) (HK : (0 < K)%nat) (Hk : (k <= K)%nat).
Hypothesis BND : forall i j, (i < hs g 0)%nat -> (j < ws g 0)%nat -> Rabs (x i j) <= B.
Hypothesis MD : forall s b i j, (s < K)%nat -> (b < gspw g)%nat -> (i < hs g (S s))%nat -> (j < ws g (S s))%nat ->
  Rabs (df A ch0 ch (s * gspw g + b) i j) <= T.
Hypothesis MA : forall i j, (i < hs g K)%nat -> (j < ws g K)%nat -> Rabs (df A ch0 ch (K * gspw g) i j) <= T0.
Notation n := (sqrt (INR (rwin g * cwin g)) * B).
Notation U := (2 * INR K * a ^ (2 * K) * kp).
Notation Q := (INR ((2 * tt - 1) * cup g)).
Notation M := (a ^ (K - k) * sqrt (Q * (INR ((K - k) * gspw g) * (T * T) + T0 * T0))).

Theorem level_local i j : (i < hs g k)%nat -> (j < ws g k)%nat ->
  Rabs (rcA ch (K - k) i j - apE x k i j) <= (a ^ (2 * K - k) - gn ^ k) * n + U + M /\
  Rabs (rcA ch (K - k) i j) <= a ^ (2 * K - k) * n + U + M.
Proof.
  intros Hi Hj.
  destruct (up_pick (rdep g) (hs g) K rpick k i Hk Hi) as [HI UI]. set (I := (2 ^ k * i)%nat) in *.
  destruct (up_pick (cdep g) (ws g) K cpick k j Hk Hj) as [HJ UJ]. set (J := (2 ^ k * j)%nat) in *.
  destruct (row_window g G I HI HK) as (ar & Har). destruct (col_window g G J HJ HK) as (ac & Hac).
  set (x' := clip ar (rwin g) (hs g 0) ac (cwin g) (ws g 0) x).
  assert (SM : forall i j, (i < hs g 0)%nat -> (j < ws g 0)%nat -> down (rdep g) (hs g) I K K i -> down (cdep g) (ws g) J K K j -> x i j = x' i j).
  { intros i' j' Hi' Hj' Di Dj. unfold x', clip. rewrite (inb_iv _ _ _ _ (Har i' Di)), (inb_iv _ _ _ _ (Hac j' Hj' Dj)). reflexivity. }
  set (ch0' := gbands g (gbandf A g x')).
  assert (H0' : holdsA A g ch0' x') by (apply bands_hold; auto).
  assert (HE' : holdsA exactR g (gbands g (gbandf exactR g x')) x') by (apply bands_hold; auto).
  set (wr := fun s => inb (ua tt I s) (2 * tt - 1) (hs g s)).
  set (wc := fun s => inb (cua g J s) (cup g) (ws g s)).
  set (lv := fun k => if Nat.ltb k (K * gspw g) then S (k / gspw g) else K).
  set (f := fun k i j => @chf R A ch0' k i j + if wr (lv k) i && wc (lv k) j then df A ch0 ch k i j else 0).
  set (ch' := gbands g f).
  assert (LV : forall s b, (s < K)%nat -> (b < gspw g)%nat -> lv (s * gspw g + b)%nat = S s).
  { intros s b Hs Hb. unfold lv. assert (s * gspw g + b < K * gspw g)%nat by nia.
    destruct (Nat.ltb_spec (s * gspw g + b) (K * gspw g)); [|lia]. rewrite Nat.div_add_l, Nat.div_small by lia. lia. }
  assert (LVK : lv (K * gspw g)%nat = K) by (unfold lv; rewrite Nat.ltb_irrefl; reflexivity).
  assert (EQ : rcA ch (K - k) i j = rcA ch' (K - k) i j).
  { apply (rc_loc g G I J ch ch'); auto; try lia; try (replace (K - (K - k))%nat with k by lia; auto).
    - intros s b i' j' Hs Hb Hi' Hj' Ui Uj. unfold ch'. rewrite chf_bands_d by auto. unfold f. rewrite LV by auto.
      unfold wr, wc. rewrite (inb_iv _ _ _ _ (row_up g G I (S s) HI HK Hs i' Ui)), (inb_iv _ _ _ _ (col_up g G J (S s) HJ HK Hs j' Hj' Uj)).
      cbn [andb]. unfold df. rewrite (det_loc A g G ch0 x H0 I J x' ch0' s b i' j') by auto. ring.
    - intros i' j' Hi' Hj' Ui Uj. unfold ch'. rewrite chf_bands_a by auto. unfold f. rewrite LVK.
      unfold wr, wc. rewrite (inb_iv _ _ _ _ (row_up g G I K HI HK (Nat.le_refl _) i' Ui)), (inb_iv _ _ _ _ (col_up g G J K HJ HK (Nat.le_refl _) j' Hj' Uj)).
      cbn [andb]. unfold df. rewrite (app_loc A g G ch0 x H0 I J x' ch0' i' j') by auto. ring. }
  assert (EX : apE x k i j = apE x' k i j).
  { apply (ap_loc g G I J x x' SM); auto; apply up_down; try lia; try (replace (K - (K - k))%nat with k by lia; auto).
    - apply rdep_ex; auto.
    - apply cdep_ex; auto. }
  rewrite EQ, EX.
  pose proof (moved_err u eta A HR Hu Heta g G ch0' ch' x' H0' (K - k) ltac:(lia)) as E1.
  replace (K - (K - k))%nat with k in E1 by lia.
  pose proof (ea_all u eta A HR Hu Heta g G ch0' x' H0' _ x' HE' (fun _ _ => eq_refl) k Hk) as E2. unfold FF in E2.
  pose proof (shrink_norm u eta A HR Hu Heta g G x' x' (fun _ _ => eq_refl) k Hk) as E3.
  pose proof (under_sum u eta Hu Heta g x' k Hk) as E4.
  pose proof (nrm_clip ar (rwin g) (hs g 0) ac (cwin g) (ws g 0) x B HB BND) as NC. fold x' in NC.
  pose proof (stepg_1 u Hu g) as S1. pose proof (gain_stepg u Hu g) as GS. pose proof (gain_1 g) as G1.
  pose proof (kap_0 u eta Hu Heta g) as K0.
  assert (P1 : gn ^ k <= a ^ (2 * K - k)).
  { apply Rle_trans with (a ^ k); [apply pow_incr; lra|apply Rle_pow; auto; lia]. }
  assert (P2 : 1 <= a ^ (2 * (K - k))) by (apply pow_R1_Rle; auto).
  assert (P3 : 0 <= a ^ (K - k)) by (apply pow_le; lra).
  assert (MV : a ^ (K - k) * sqrt (moved A g ch0' ch' (K - k)) <= M).
  { apply Rmult_le_compat_l; auto. apply sqrt_le_1_alt.
    assert (CNT : forall s (F : nat -> nat -> R) (V : R), 0 <= V ->
       (forall i j, (i < hs g s)%nat -> (j < ws g s)%nat -> Rabs (F i j) <= V) ->
       rsum2 (hs g s) (ws g s) (fun i j => sq (if wr s i && wc s j then F i j else 0)) <= Q * (V * V)).
    { intros s F V HV HF. pose proof (nrm_clip (ua tt I s) (2 * tt - 1) (hs g s) (cua g J s) (cup g) (ws g s) F V HV HF) as NK.
      assert (N0 := nrm_pos (hs g s) (ws g s) (clip (ua tt I s) (2 * tt - 1) (hs g s) (cua g J s) (cup g) (ws g s) F)).
      pose proof (nrm_sq (hs g s) (ws g s) (clip (ua tt I s) (2 * tt - 1) (hs g s) (cua g J s) (cup g) (ws g s) F)) as NS.
      match type of NS with _ = ?r => change r with (rsum2 (hs g s) (ws g s) (fun i j => sq (if wr s i && wc s j then F i j else 0))) in NS end.
      rewrite <- NS. unfold sq.
      apply Rle_trans with ((sqrt Q * V) * (sqrt Q * V)); [apply Rmult_le_compat; auto|].
      apply Req_le. rewrite <- (sqrt_sqrt Q) at 3 by apply pos_INR. ring. }
    assert (IT : forall it, (it <= K)%nat -> moved A g ch0' ch' it <= Q * (INR (it * gspw g) * (T * T) + T0 * T0)).
    { induction it as [|it IH]; intros Hit.
      - cbn [moved Nat.mul INR]. rewrite Rmult_0_l, Rplus_0_l.
        eapply Rle_trans; [|apply (CNT K (df A ch0 ch (K * gspw g)) T0 HT0); intros; apply MA; auto].
        apply Req_le. apply rsum2_ext. intros i' j' Hi' Hj'. f_equal. unfold df at 1.
        unfold ch'. rewrite chf_bands_a by auto. unfold f. rewrite LVK. ring.
      - cbn [moved]. specialize (IH ltac:(lia)). set (s := (K - S it)%nat). assert (Hs : (s < K)%nat) by (unfold s; lia).
        assert (DL : dl2 A g ch0' ch' s <= Q * (INR (gspw g) * (T * T))).
        { unfold dl2. apply Rle_trans with (rsum (gspw g) (fun _ => Q * (T * T))).
          - apply rsum_le. intros b Hb.
            eapply Rle_trans; [|apply (CNT (S s) (df A ch0 ch (s * gspw g + b)) T HT); intros; apply MD; auto].
            apply Req_le. apply rsum2_ext. intros i' j' Hi' Hj'. f_equal. unfold df at 1.
            unfold ch'. rewrite chf_bands_d by auto. unfold f. rewrite LV by auto. ring.
          - rewrite rsum_const. apply Req_le. ring. }
        replace (S it * gspw g)%nat with (it * gspw g + gspw g)%nat by lia. rewrite plus_INR. fold s. lra. }
    apply IT. lia. }
  set (N := nrm (hs g 0) (ws g 0) x') in *. set (X := nrm (hs g k) (ws g k) (@ap R A g x' k)) in *.
  set (Y := a ^ k * (N + INR k * kp)) in *.
  assert (Z1 : (a ^ (2 * (K - k)) - 1) * X <= (a ^ (2 * (K - k)) - 1) * Y) by (apply Rmult_le_compat_l; lra).
  assert (Z2 : 0 <= INR k * a ^ k * kp).
  { apply Rmult_le_pos; auto. apply Rmult_le_pos; [apply pos_INR|apply pow_le; lra]. }
  assert (Z3 : a ^ (2 * K - k) * N <= a ^ (2 * K - k) * n) by (apply Rmult_le_compat_l; [apply pow_le; lra|exact NC]).
  assert (Z4 : (a ^ (2 * K - k) - gn ^ k) * N <= (a ^ (2 * K - k) - gn ^ k) * n) by (apply Rmult_le_compat_l; [lra|exact NC]).
  assert (EY : Y = a ^ k * N + INR k * a ^ k * kp) by (unfold Y; ring).
  clearbody Y.
  pose proof (nrm_elem (hs g k) (ws g k) (fun i j => rcA ch' (K - k) i j - apE x' k i j) i j Hi Hj) as N1.
  pose proof (nrm_elem (hs g k) (ws g k) (rcA ch' (K - k)) i j Hi Hj) as N2. cbv beta in N1.
  split.
  - eapply Rle_trans; [exact N1|].
    rewrite (nrm_ext _ _ _ (fun i j => (rcA ch' (K - k) i j - @ap R A g x' k i j) + (@ap R A g x' k i j - apE x' k i j))) by (intros; ring).
    eapply Rle_trans; [apply nrm_triang|]. lra.
  - eapply Rle_trans; [exact N2|].
    rewrite (nrm_ext _ _ _ (fun i j => (rcA ch' (K - k) i j - @ap R A g x' k i j) + @ap R A g x' k i j)) by (intros; ring).
    eapply Rle_trans; [apply nrm_triang|]. fold X. lra.
Qed.
End Geom.
End Round.

(** ** the API, any arithmetic *)
Section Api.
Variables (u eta d e : R) (A : Arith R).
Hypothesis (HR : rounding u eta A) (Hu : 0 <= u) (Heta : 0 <= eta) (Hd : 0 <= d) (He : 0 <= e).
Variable p : params.
Hypothesis HA : accepted p.
Notation g := (geom_of p).
Variable k : nat.
Hypothesis Hk : (k <= nsteps p)%nat.

Lemma small_in i j : (i < small_rows p k)%nat -> (j < small_cols p k)%nat ->
  (small_row p k i < hs g k)%nat /\ (small_col p k j < ws g k)%nat.
Proof.
  intros Hi Hj. rewrite (hs_level p HA), (ws_level p HA). split; [apply (off_in_r p HA k i Hi)|apply (off_in_c p HA k j Hj)].
Qed.

Theorem sample_near m ch B T T0 i j o : shaped p m -> has_layout p ch -> 0 <= B -> 0 <= T -> 0 <= T0 ->
  Forall (fun v => Rabs v <= B) (elts m) -> within_each T T0 p (@dec_of p R A null_denoiser m) ch ->
  (i < small_rows p k)%nat -> (j < small_cols p k)%nat ->
  let y := @rc R A g ch (gK g - k) (small_row p k i) (small_col p k j) in
  Rabs (o - y / factor p k) <= d * Rabs (y / factor p k) + e ->
  Rabs (o - @ap R exactR g (@padf p R exactR m) k (small_row p k i) (small_col p k j) / factor p k) <=
    preview_sample u eta d e p k (sqrt (INR (window_area p)) * B) (spread_at p k T T0).
Proof.
  intros HS HL HB0 HT HT0 HB HW Hi Hj y Ho. pose proof HS as (W & Rm & Cm). pose proof (factor_pos p k) as FP.
  destruct (small_in i j Hi Hj) as [HI HJ]. set (I := small_row p k i) in *. set (J := small_col p k j) in *.
  assert (HkK : (k <= gK g)%nat) by (rewrite (K_nsteps p HA); auto).
  set (ch0 := @dec_of p R A null_denoiser m) in *.
  assert (L0 : has_layout p ch0) by (apply dec_of_layout; auto; apply null_keepsA).
  set (x := @padf p R exactR m).
  assert (XA : forall i j, @padf p R A m i j = x i j) by (intros; apply (padf_R u eta A HR)).
  assert (BND : forall i j, (i < hs g 0)%nat -> (j < ws g 0)%nat -> Rabs (@padf p R A m i j) <= B).
  { intros i' j' _ _. unfold padf, mel.
    match goal with |- context [nth ?n ?l ?d] => destruct (nth_in_or_default n l d) as [H'|H'] end.
    - rewrite Forall_forall in HB. auto.
    - rewrite H', (rounding_zero _ _ _ HR), Rabs_R0. auto. }
  assert (LY0 : layout g ch0) by (apply (layout_iff p HA); auto).
  assert (LY : layout g ch) by (apply (layout_iff p HA); auto).
  assert (SPW : gspw g = bands p) by (apply (spw_bands p HA)).
  assert (MD : forall s b i j, (s < gK g)%nat -> (b < gspw g)%nat -> (i < hs g (S s))%nat -> (j < ws g (S s))%nat ->
    Rabs (df A ch0 ch (s * gspw g + b) i j) <= T).
  { intros s b i' j' Hs Hb Hi' Hj'. assert (KB : (s * gspw g + b < gK g * gspw g)%nat) by nia.
    pose proof (lay_nth g ch0 _ LY0 KB) as S0. pose proof (lay_nth g ch _ LY KB) as S1.
    replace ((s * gspw g + b) / gspw g)%nat with s in S0, S1 by (rewrite Nat.div_add_l, Nat.div_small by lia; lia).
    destruct LY0 as [Le0 _]. destruct LY as [Le1 _].
    pose proof (within_df A p T T0 ch0 ch (s * gspw g + b) (hs g (S s)) (ws g (S s)) HW ltac:(lia) ltac:(lia) S0 S1 i' j' Hi' Hj') as Q.
    rewrite (K_nsteps p HA), SPW in KB. rewrite SPW in *. destruct (Nat.ltb_spec (s * bands p + b) (nsteps p * bands p)); [auto|lia]. }
  assert (MA : forall i j, (i < hs g (gK g))%nat -> (j < ws g (gK g))%nat -> Rabs (df A ch0 ch (gK g * gspw g) i j) <= T0).
  { intros i' j' Hi' Hj'.
    pose proof (lay_last g ch0 LY0) as S0. pose proof (lay_last g ch LY) as S1.
    destruct LY0 as [Le0 _]. destruct LY as [Le1 _].
    pose proof (within_df A p T T0 ch0 ch (gK g * gspw g) (hs g (gK g)) (ws g (gK g)) HW ltac:(lia) ltac:(lia) S0 S1 i' j' Hi' Hj') as Q.
    rewrite (K_nsteps p HA), SPW in *. rewrite Nat.ltb_irrefl in Q. auto. }
  set (n := sqrt (INR (window_area p)) * B). set (f := factor p k) in *.
  set (ak := step_gain u p ^ (2 * nsteps p - k)). set (gk := (1 + Q2R (filter_defect (wtype p))) ^ (passes p * k)).
  set (U := underflow u eta p). set (X := step_gain u p ^ (nsteps p - k) * spread_at p k T T0).
  assert (LV : Rabs (y - @ap R exactR g x k I J) <= (ak - gk) * n + U + X /\ Rabs y <= ak * n + U + X).
  { destruct (Nat.eq_dec (gK g) 0) as [E0|E0].
    - assert (N0 : nsteps p = 0%nat) by (rewrite <- (K_nsteps p HA); auto). assert (k0 : k = 0%nat) by lia.
      assert (EX : X = T0).
      { unfold X, spread_at, cone. rewrite N0, k0. cbn [Nat.eqb Nat.mul Nat.sub pow INR].
        replace (1 * (0 * (T * T) + T0 * T0)) with (T0 * T0) by ring. rewrite sqrt_square by auto. ring. }
      assert (EU : U = 0) by (unfold U, underflow; rewrite N0; cbn [INR]; ring).
      assert (EA : ak = 1) by (unfold ak; rewrite N0; reflexivity).
      assert (EG : gk = 1) by (unfold gk; rewrite k0, Nat.mul_0_r; reflexivity).
      assert (EN : n = B).
      { unfold n, window_area, window. rewrite N0. cbn [Nat.eqb]. rewrite Nat.pow_1_l. cbn [INR]. rewrite sqrt_1. ring. }
      rewrite EX, EU, EA, EG, EN.
      assert (EY : y - @padf p R A m I J = df A ch0 ch (gK g * gspw g) I J).
      { unfold y, df. replace (gK g - k)%nat with 0%nat by lia. cbn [rc].
        destruct (dec_holdsA A p m) as [_ HD]. fold ch0 in HD. rewrite HD by (rewrite E0; rewrite k0 in HI, HJ; auto).
        rewrite E0. reflexivity. }
      specialize (MA I J). rewrite E0 in MA. rewrite k0 in HI, HJ. specialize (MA HI HJ). rewrite <- E0 in MA at 1. rewrite <- EY in MA.
      pose proof (BND I J HI HJ) as BB.
      rewrite k0. cbn [ap]. rewrite <- XA. split; [lra|].
      replace y with (y - @padf p R A m I J + @padf p R A m I J) by ring. eapply Rle_trans; [apply Rabs_triang|]. lra.
    - assert (HK : (0 < gK g)%nat) by lia. assert (HN : (0 < nsteps p)%nat) by (rewrite <- (K_nsteps p HA); auto).
      pose proof (level_local u eta A HR Hu Heta g (geom_wf p HA) ch0 ch (@padf p R A m) (dec_holdsA A p m) B T T0 k HB0 HT HT0 HK HkK BND MD MA I J HI HJ) as LM.
      rewrite (win_area p HA HN), (cone_cup p HA HN), SPW in LM.
      rewrite <- (underflow_kap u eta p HA), (stepg_gain u p HA), (K_nsteps p HA) in LM.
      assert (EG : gain g ^ k = gk).
      { unfold gk. rewrite pow_mult. f_equal. rewrite <- stepg_exact, (stepg_gain 0 p HA). unfold step_gain. f_equal. apply pass_gain_0. }
      rewrite EG in LM.
      assert (EP : @padf p R A m = x) by (apply FunctionalExtensionality.functional_extensionality; intros; apply FunctionalExtensionality.functional_extensionality; auto).
      rewrite EP in LM. unfold y. rewrite (K_nsteps p HA). exact LM. }
  destruct LV as [V1 V2]. unfold preview_sample. fold n f ak gk U X.
  assert (I0 : 0 < / f) by (apply Rinv_0_lt_compat; auto).
  set (z := @ap R exactR g x k I J) in *.
  replace (o - z / f) with ((o - y / f) + / f * (y - z)) by (field; lra).
  eapply Rle_trans; [apply Rabs_triang|]. rewrite Rabs_mult, (Rabs_pos_eq (/ f)) by lra.
  assert (Q1 : d * Rabs (y / f) <= d * (ak * n + U + X) * / f).
  { unfold Rdiv. rewrite Rabs_mult, (Rabs_pos_eq (/ f)), <- Rmult_assoc by lra. apply Rmult_le_compat_r; [lra|]. apply Rmult_le_compat_l; auto. }
  assert (Q2 : / f * Rabs (y - z) <= / f * ((ak - gk) * n + U + X)) by (apply Rmult_le_compat_l; lra).
  apply Rle_trans with (d * (ak * n + U + X) * / f + e + / f * ((ak - gk) * n + U + X)); [lra|].
  apply Req_le. unfold Rdiv. ring.
Qed.
End Api.

(** ** binary32 *)
Section Float.
Variable sc : nat -> nat -> f32 -> f32.
Variable p : params.
Hypothesis HA : accepted p.
Notation g := (geom_of p).
Variable k : nat.
Hypothesis Hk : (k <= nsteps p)%nat.
Hypothesis HD : (0 < k)%nat -> divides32 sc p k.
Notation B32 := (with_division sc).
Notation d23 := (/ 2 ^ 23).
Notation e149 := (/ 2 ^ 149).

Lemma moved_scaled32 (CH : list (mat f32)) i j : has_layout p CH -> Forall all_finite CH -> channel_energy (map values CH) <= 2 ^ 222 ->
  (i < small_rows p k)%nat -> (j < small_cols p k)%nat ->
  let X := @rc f32 binary32 g CH (gK g - k) (small_row p k i) (small_col p k j) in
  let y := @rc R A32 g (map values CH) (gK g - k) (small_row p k i) (small_col p k j) in
  let Y := if Nat.ltb 0 k then sc (length (shape p)) k X else X in
  is_finite Y = true /\ Rabs (B2R Y - y / factor p k) <= d23 * Rabs (y / factor p k) + e149.
Proof.
  intros HL HF HE Hi Hj X y Y.
  assert (HkK : (k <= gK g)%nat) by (rewrite (K_nsteps p HA); auto).
  destruct (small_in p HA k i j Hi Hj) as [HI HJ].
  assert (V : vle 113 X y).
  { apply (rcm_rel p HA CH HL HF HE (gK g - k) ltac:(lia)); replace (gK g - (gK g - k))%nat with k by lia; auto. }
  destruct V as [[VF VR] VB].
  unfold Y. destruct (Nat.ltb_spec 0 k) as [H|H].
  - rewrite <- VR. apply HD; auto. rewrite VR. eapply Rle_trans; [exact VB|].
    apply Rle_trans with (bp 120); [apply bpow_le; lia|]. rewrite (pow_IZR 2 120). apply Rle_refl.
  - split; auto. assert (H0 : k = 0%nat) by lia. replace (factor p k) with 1 by (unfold factor; rewrite H0; reflexivity). rewrite VR.
    replace (y - y / 1) with 0 by field. rewrite Rabs_R0. apply Rplus_le_le_0_compat.
    + apply Rmult_le_pos; [|apply Rabs_pos]. apply Rlt_le, Rinv_0_lt_compat, pow_lt. lra.
    + apply Rlt_le, Rinv_0_lt_compat, pow_lt. lra.
Qed.
Lemma com_with' CH : @com_of p f32 B32 k CH = mk (small_rows p k) (small_cols p k) (fun i j =>
  (fun X => if Nat.ltb 0 k then sc (length (shape p)) k X else X)
    (@rc f32 binary32 g CH (gK g - k) (small_row p k i) (small_col p k j))).
Proof.
  unfold com_of, scalem. rewrite rc_with. rewrite (cropfA p HA).
  change (crows p k) with (small_rows p k). change (ccols p k) with (small_cols p k).
  destruct (Nat.ltb 0 k); [|reflexivity].
  unfold mk; cbn [rows cols elts]. rewrite map_map. reflexivity.
Qed.

Lemma area_1 i j : (i < small_rows p k)%nat -> (j < small_cols p k)%nat -> 1 <= sqrt (INR (small_rows p k * small_cols p k)).
Proof.
  intros Hi Hj. rewrite <- sqrt_1. apply sqrt_le_1_alt. change 1 with (INR 1). apply le_INR. nia.
Qed.
Lemma sample_small n X i j : (i < small_rows p k)%nat -> (j < small_cols p k)%nat -> 0 <= n -> 0 <= X ->
  preview_sample u32 eta32 d23 e149 p k n X <=
  ((INR (passes p * nsteps p) * (75 / 10 ^ 7) + / 10 ^ 6) * n + 101 / 100 * X) / factor p k + INR (nsteps p + 1) / 2 ^ 73.
Proof.
  intros Hi Hj Hn HX. pose proof (preview_bound_small p k n HA Hk Hn) as PB. pose proof (area_1 i j Hi Hj) as A1.
  pose proof (factor_pos p k) as FP. destruct (float_bounds p HA) as [F _].
  unfold preview_bound in PB. unfold preview_sample.
  assert (S1 : 1 <= step_gain u32 p) by (rewrite <- (stepg_gain u32 p HA); apply (stepg_1 u32 u32_pos)).
  assert (G : step_gain u32 p ^ (nsteps p - k) <= 1 + 1 / 1000).
  { apply Rle_trans with (step_gain u32 p ^ (2 * nsteps p)); [apply Rle_pow; auto; lia|].
    unfold float_rel in F. pose proof (K62 p HA) as K2.
    assert (P2 : (passes p <= 2)%nat) by (unfold passes; destruct (is_1d p); lia).
    assert (L : (passes p * nsteps p <= 124)%nat) by (rewrite (K_nsteps p HA) in K2; nia).
    apply le_INR in L. rewrite (INR_IZR_INZ 124) in L. change (IZR (Z.of_nat 124)) with 124 in L. lra. }
  set (ak := step_gain u32 p ^ (2 * nsteps p - k)) in *. set (gk := _ ^ (passes p * k)) in *.
  set (w := step_gain u32 p ^ (nsteps p - k)) in *. set (f := factor p k) in *. set (U := underflow u32 eta32 p) in *.
  assert (I0 : 0 < / f) by (apply Rinv_0_lt_compat; auto).
  assert (D : 0 <= d23 <= 1 / 1000). { split; [apply Rlt_le, Rinv_0_lt_compat, pow_lt; lra|]. lra. }
  assert (E : 0 <= e149) by (apply Rlt_le, Rinv_0_lt_compat, pow_lt; lra).
  assert (E2 : e149 * 1 <= e149 * sqrt (INR (small_rows p k * small_cols p k))) by (apply Rmult_le_compat_l; auto).
  assert (W : (1 + d23) * (w * X) <= 101 / 100 * X).
  { rewrite <- Rmult_assoc. apply Rmult_le_compat_r; auto. apply Rle_trans with ((1 + 1 / 1000) * (1 + 1 / 1000)); [|lra].
    apply Rmult_le_compat; try lra. unfold w. apply pow_le. lra. }
  clearbody ak gk w f U.
  replace (((1 + d23) * (ak * n + U + w * X) - gk * n) / f + e149) with
    (((1 + d23) * (ak * n + U) - gk * n) / f + e149 + (1 + d23) * (w * X) * / f) by (unfold Rdiv; ring).
  replace (((INR (passes p * nsteps p) * (75 / 10 ^ 7) + / 10 ^ 6) * n + 101 / 100 * X) / f) with
    ((INR (passes p * nsteps p) * (75 / 10 ^ 7) + / 10 ^ 6) * n / f + 101 / 100 * X * / f) by (unfold Rdiv; ring).
  apply (Rmult_le_compat_r (/ f)) in W; lra.
Qed.

(** DB1 *)
Lemma sample_db1 n X : wtype p = 1%Z -> 0 <= n -> 0 <= X ->
  preview_sample u32 eta32 d23 e149 p k n X <=
  ((INR (passes p * nsteps p) * (102 / 10 ^ 8) + 2 / 10 ^ 7) * n + 101 / 100 * X) / factor p k + INR (nsteps p + 1) / 2 ^ 73.
Proof.
  intros H1 Hn HX. pose proof (float_rel_db1 p HA H1) as F. destruct (float_bounds p HA) as [_ UB].
  pose proof (factor_pos p k) as FP. unfold preview_sample.
  assert (S1 : 1 <= step_gain u32 p) by (rewrite <- (stepg_gain u32 p HA); apply (stepg_1 u32 u32_pos)).
  assert (P2 : (passes p <= 2)%nat) by (unfold passes; destruct (is_1d p); lia). pose proof (K62 p HA) as K2.
  assert (L : (passes p * nsteps p <= 124)%nat) by (rewrite (K_nsteps p HA) in K2; nia).
  apply le_INR in L. rewrite (INR_IZR_INZ 124) in L. change (IZR (Z.of_nat 124)) with 124 in L.
  set (P := INR (passes p * nsteps p)) in *. unfold float_rel in F.
  assert (G : 1 <= step_gain u32 p ^ (nsteps p - k) <= 1 + P * (102 / 10 ^ 8)).
  { split; [apply pow_R1_Rle; auto|]. apply Rle_trans with (step_gain u32 p ^ (2 * nsteps p)); [apply Rle_pow; auto; lia|]. lra. }
  assert (G2 : 1 <= step_gain u32 p ^ (2 * nsteps p - k) <= 1 + P * (102 / 10 ^ 8)).
  { split; [apply pow_R1_Rle; auto|]. apply Rle_trans with (step_gain u32 p ^ (2 * nsteps p)); [apply Rle_pow; auto; lia|]. lra. }
  rewrite H1. change (filter_defect 1) with 0%Q. replace ((1 + Q2R 0) ^ (passes p * k)) with 1.
  2:{ replace (Q2R 0) with 0 by (unfold Q2R; simpl; lra). rewrite Rplus_0_r, pow1. reflexivity. }
  assert (FG : 1 <= factor p k) by (unfold factor; apply pow_R1_Rle; pose proof sqrt2_bounds; destruct (is_1d p); lra).
  set (ak := step_gain u32 p ^ (2 * nsteps p - k)) in *. set (w := step_gain u32 p ^ (nsteps p - k)) in *.
  set (f := factor p k) in *. set (U := underflow u32 eta32 p) in *.
  assert (I0 : 0 < / f <= 1). { split; [apply Rinv_0_lt_compat; auto|]. rewrite <- Rinv_1. apply Rinv_le_contravar; lra. }
  assert (D : 0 <= d23 <= 12 / 10 ^ 8) by (split; [apply Rlt_le, Rinv_0_lt_compat, pow_lt; lra|lra]).
  assert (E : 0 <= e149 <= / 2 ^ 75).
  { split; [apply Rlt_le, Rinv_0_lt_compat, pow_lt; lra|]. apply Rinv_le_contravar; [apply pow_lt; lra|apply Rle_pow; [lra|lia]]. }
  assert (PP : 0 <= P <= 124) by (split; [apply pos_INR|exact L]).
  assert (A1 : (1 + d23) * (ak * n) - n <= (P * (102 / 10 ^ 8) + 2 / 10 ^ 7) * n).
  { replace ((1 + d23) * (ak * n) - n) with (((1 + d23) * ak - 1) * n) by ring. apply Rmult_le_compat_r; auto.
    assert ((1 + d23) * ak <= (1 + d23) * (1 + P * (102 / 10 ^ 8))) by (apply Rmult_le_compat_l; lra).
    assert (d23 * (P * (102 / 10 ^ 8)) <= 12 / 10 ^ 8 * (124 * (102 / 10 ^ 8))) by (apply Rmult_le_compat; lra). lra. }
  assert (A2 : (1 + d23) * (w * X) <= 101 / 100 * X).
  { rewrite <- Rmult_assoc. apply Rmult_le_compat_r; auto. apply Rle_trans with ((1 + 1 / 1000) * (1 + 1 / 1000)); [|lra].
    apply Rmult_le_compat; try lra. }
  assert (A3 : (1 + d23) * U * / f + e149 <= INR (nsteps p + 1) / 2 ^ 73).
  { rewrite plus_INR. change (INR 1) with 1. pose proof (pos_INR (nsteps p)) as N0.
    assert (W0 : 0 < / 2 ^ 75) by (apply Rinv_0_lt_compat, pow_lt; lra).
    assert (W1 : / 2 ^ 74 = 2 * / 2 ^ 75) by (change 75%nat with (S 74); rewrite <- tech_pow_Rmult, Rinv_mult by (try lra; apply pow_nonzero; lra); field; apply pow_nonzero; lra).
    assert (W2 : / 2 ^ 73 = 4 * / 2 ^ 75) by (change 75%nat with (2 + 73)%nat; rewrite pow_add, Rinv_mult by (try lra; apply pow_nonzero; lra); field; apply pow_nonzero; lra).
    unfold Rdiv in *. rewrite W1 in UB. rewrite W2. set (q := / 2 ^ 75) in *. set (N := INR (nsteps p)) in *.
    assert (U0 : 0 <= U).
    { unfold U. rewrite (underflow_kap u32 eta32 p HA). pose proof (kap_0 u32 eta32 u32_pos eta32_pos (geom_of p)).
      pose proof (pos_INR (gK (geom_of p))). pose proof (stepg_1 u32 u32_pos (geom_of p)).
      apply Rmult_le_pos; auto. apply Rmult_le_pos; [lra|]. apply pow_le. lra. }
    assert (Y1 : (1 + d23) * U <= 2 * (N * (2 * q))) by (apply Rmult_le_compat; lra).
    assert (Y2 : (1 + d23) * U * / f <= 2 * (N * (2 * q)) * 1).
    { apply Rmult_le_compat; try lra. }
    assert (0 <= N * q) by (apply Rmult_le_pos; lra). lra. }
  clearbody ak w f U P.
  replace (((1 + d23) * (ak * n + U + w * X) - 1 * n) / f + e149) with
    (((1 + d23) * (ak * n) - n) * / f + (1 + d23) * (w * X) * / f + ((1 + d23) * U * / f + e149)) by (unfold Rdiv; ring).
  apply (Rmult_le_compat_r (/ f)) in A1; [|lra]. apply (Rmult_le_compat_r (/ f)) in A2; [|lra].
  unfold Rdiv in *. lra.
Qed.

Notation limit B T T0 := (preview_sample u32 eta32 d23 e149 p k (sqrt (INR (window_area p)) * B) (spread_at p k T T0)).

(** channels near those of a bounded signal, composed at scale factor k *)
Theorem sample32 m (CH : list (mat f32)) B T T0 : shaped p m -> 0 <= B -> B <= 2 ^ 46 -> bounded B m -> 0 <= T -> 0 <= T0 ->
  has_layout p CH -> Forall all_finite CH -> channel_energy (map values CH) <= 2 ^ 222 ->
  within_each T T0 p (map values (@dec_of p f32 binary32 null_denoiser m)) (map values CH) ->
  let o := @com_of p f32 B32 k CH in
  sized (small_rows p k) (small_cols p k) o /\ all_finite o /\
  forall i j, (i < small_rows p k)%nat -> (j < small_cols p k)%nat ->
    Rabs (at_ (values o) i j - @ap R exactR g (@padf p R exactR (values m)) k (small_row p k i) (small_col p k j) / factor p k) <= limit B T T0.
Proof.
  intros HS HB0 HB46 Bm HT HT0 HL HF HE HW o. unfold o. rewrite com_with'.
  destruct (values_mk (small_rows p k) (small_cols p k) (fun i j =>
    (fun X => if Nat.ltb 0 k then sc (length (shape p)) k X else X)
    (@rc f32 binary32 g CH (gK g - k) (small_row p k i) (small_col p k j))) (fun i j => B2R (
    (fun X => if Nat.ltb 0 k then sc (length (shape p)) k X else X)
    (@rc f32 binary32 g CH (gK g - k) (small_row p k i) (small_col p k j))))) as [V F].
  { intros i j Hi Hj. split; [|reflexivity]. apply (moved_scaled32 CH i j HL HF HE Hi Hj). }
  split; [split; [apply mk_wf|split; reflexivity]|]. split; [exact F|]. intros i j Hi Hj.
  rewrite V, at_mk by auto. cbv beta.
  rewrite (dec_values p HA m HS (bounded_finite B m Bm) (bounded_energy p HA B m HS Bm HB46)) in HW.
  pose proof (sample_near u32 eta32 d23 e149 A32 A32_rounding u32_pos eta32_pos) as SN.
  apply (SN ltac:(apply Rlt_le, Rinv_0_lt_compat, pow_lt; lra) p HA k Hk (values m) (map values CH) B T T0); auto using shaped_values, values_layout, bounded_values.
  apply (moved_scaled32 CH i j HL HF HE Hi Hj).
Qed.
End Float.
