(** * P_Loc5: error of a sample for the API, in any rounding and in binary32. *)
Require Import List Bool Arith ZArith QArith Qreals Lia Reals Lra Psatz.
Require Import ZifyBool.
Require Import Flocq.Core.Core Flocq.IEEE754.BinarySingleNaN.
Require Import Verif.M_Base Verif.M_Params Verif.M_Padding Verif.M_Wavelet Verif.M_Buffer Verif.M_Real Verif.M_Float Verif.M_Binary32 Verif.M_Denoise Verif.M_Mag32.
Require Import Verif.S_Params Verif.S_Padding Verif.S_Buffer Verif.S_Exact Verif.S_Round Verif.S_Stable Verif.S_Local Verif.S_Denoise.
Require Import Verif.P_Base Verif.P_Wavelet Verif.P_Buffer Verif.P_Impl Verif.P_Api Verif.P_Api2.
Require Import Verif.P_Sum Verif.P_Lin Verif.P_PR Verif.P_L2 Verif.P_Rec Verif.P_Exact Verif.P_Round Verif.P_Round2 Verif.P_Round3.
Require Import Verif.P_Float Verif.P_Binary32 Verif.P_Bin2 Verif.P_Bin3 Verif.P_Denoise.
Require Import Verif.P_Stable Verif.P_Stable2 Verif.P_Dual3 Verif.P_BinMove Verif.P_BinMove2 Verif.P_DenoiseF Verif.P_Loc Verif.P_Loc2 Verif.P_Loc3 Verif.P_Loc4.
Import ListNotations.
Open Scope R_scope.

Section Round.
Variables (u eta : R) (A : Arith R).
Hypothesis (HR : rounding u eta A) (Hu : 0 <= u) (Heta : 0 <= eta).
Variable p : params.
Hypothesis HA : accepted p.
Notation g := (geom_of p).

Lemma within_df T T0 (ch0 ch : list (mat R)) k r c : within_each T T0 p ch0 ch ->
  (k < length ch0)%nat -> (k < length ch)%nat -> sized r c (nth k ch0 mempty) -> sized r c (nth k ch mempty) ->
  forall i j, (i < r)%nat -> (j < c)%nat -> Rabs (df A ch0 ch k i j) <= if (k <? nsteps p * bands p)%nat then T else T0.
Proof.
  intros H L0 L1 (W0 & R0 & C0) (W1 & R1 & C1) i j Hi Hj.
  destruct (nth_error ch0 k) as [m0|] eqn:E0; [|apply nth_error_None in E0; lia].
  destruct (nth_error ch k) as [m1|] eqn:E1; [|apply nth_error_None in E1; lia].
  rewrite (nth_error_nth _ _ mempty E0) in *. rewrite (nth_error_nth _ _ mempty E1) in *.
  specialize (H k m0 m1 E0 E1 (i * c + j)%nat).
  assert (V0 : (i * c + j < length (elts m0))%nat) by (rewrite W0, R0, C0; nia).
  assert (V1 : (i * c + j < length (elts m1))%nat) by (rewrite W1, R1, C1; nia).
  unfold df, chf, mel. rewrite (nth_error_nth _ _ mempty E0), (nth_error_nth _ _ mempty E1), C0, C1.
  apply H; apply nth_error_nth'; auto.
Qed.

Theorem com_local m ch B T T0 i j : shaped p m -> has_layout p ch -> 0 <= T -> 0 <= T0 ->
  Forall (fun v => Rabs v <= B) (elts m) -> within_each T T0 p (@dec_of p R A null_denoiser m) ch ->
  (i < drows p)%nat -> (j < dcols p)%nat ->
  Rabs (at_ (@com_of p R A 0 ch) i j - at_ m i j) <=
    float_rel u p * (sqrt (INR (window_area p)) * B) + underflow u eta p + step_gain u p ^ nsteps p * spread p T T0.
Proof.
  intros HS HL HT HT0 HB HW Hi Hj. pose proof HS as (W & Rm & Cm).
  set (I := (offk_r p 0 + i)%nat). set (J := (offk_c p 0 + j)%nat).
  assert (HI : (I < hs g 0)%nat) by (apply off_rows; auto).
  assert (HJ : (J < ws g 0)%nat) by (apply off_cols; auto).
  set (ch0 := @dec_of p R A null_denoiser m).
  assert (L0 : has_layout p ch0) by (apply dec_of_layout; auto; apply null_keepsA).
  assert (HB0 : 0 <= B).
  { destruct (elts m) as [|v l] eqn:E.
    - unfold mwf in W. rewrite E, Rm, Cm in W. simpl in W. nia.
    - inversion HB; subst. eapply Rle_trans; [apply Rabs_pos|eauto]. }
  assert (Eo : at_ (@com_of p R A 0 ch) i j = @rc R A g ch (gK g) I J).
  { unfold com_of, scalem. cbn [Nat.ltb Nat.leb]. rewrite Nat.sub_0_r, (cropfA p HA), crows_0, ccols_0. rewrite at_mk by auto; reflexivity. }
  assert (Em : at_ m i j = @padf p R A m I J).
  { rewrite (padf_R u eta A HR).
    rewrite <- (crop_pad p HA m HS) at 1. rewrite (cropf_eq p HA), crows_0, ccols_0. rewrite at_mk by auto; reflexivity. }
  assert (BND : forall i j, (i < hs g 0)%nat -> (j < ws g 0)%nat -> Rabs (@padf p R A m i j) <= B).
  { intros i' j' _ _. unfold padf, mel. 
    match goal with |- context [nth ?n ?l ?d] => destruct (nth_in_or_default n l d) as [H'|H'] end.
    - rewrite Forall_forall in HB. auto.
    - rewrite H', (rounding_zero _ _ _ HR), Rabs_R0. auto. }
  assert (LY0 : layout g ch0) by (apply (layout_iff p HA); auto).
  assert (LY : layout g ch) by (apply (layout_iff p HA); auto).
  assert (SPW : gspw g = bands p) by (apply (spw_bands p HA)).
  assert (MD : forall s b i j, (s < gK g)%nat -> (b < gspw g)%nat -> (i < hs g (S s))%nat -> (j < ws g (S s))%nat ->
    Rabs (df A ch0 ch (s * gspw g + b) i j) <= T).
  { intros s b i' j' Hs Hb Hi' Hj'. assert (KB : (s * gspw g + b < gK g * gspw g)%nat) by nia.
    pose proof (lay_nth g ch0 _ LY0 KB) as S0. pose proof (lay_nth g ch _ LY KB) as S1.
    replace ((s * gspw g + b) / gspw g)%nat with s in S0, S1 by (rewrite Nat.div_add_l, Nat.div_small by lia; lia).
    destruct LY0 as [Le0 _]. destruct LY as [Le1 _].
    pose proof (within_df T T0 ch0 ch (s * gspw g + b) (hs g (S s)) (ws g (S s)) HW ltac:(lia) ltac:(lia) S0 S1 i' j' Hi' Hj') as Q.
    rewrite (K_nsteps p HA), SPW in KB. rewrite SPW in *. destruct (Nat.ltb_spec (s * bands p + b) (nsteps p * bands p)); [auto|lia]. }
  assert (MA : forall i j, (i < hs g (gK g))%nat -> (j < ws g (gK g))%nat -> Rabs (df A ch0 ch (gK g * gspw g) i j) <= T0).
  { intros i' j' Hi' Hj'.
    pose proof (lay_last g ch0 LY0) as S0. pose proof (lay_last g ch LY) as S1.
    destruct LY0 as [Le0 _]. destruct LY as [Le1 _].
    pose proof (within_df T T0 ch0 ch (gK g * gspw g) (hs g (gK g)) (ws g (gK g)) HW ltac:(lia) ltac:(lia) S0 S1 i' j' Hi' Hj') as Q.
    rewrite (K_nsteps p HA), SPW in *. rewrite Nat.ltb_irrefl in Q. auto. }
  rewrite Eo, Em.
  destruct (Nat.eq_dec (gK g) 0) as [E0|E0].
  - assert (N0 : nsteps p = 0%nat) by (rewrite <- (K_nsteps p HA); auto).
    unfold float_rel, underflow, spread, cone. rewrite N0. cbn [Nat.eqb Nat.mul pow INR].
    replace ((1 - 1) * (sqrt (INR (window_area p)) * B) + _ + 1 * sqrt (1 * (0 * (T * T) + T0 * T0))) with (sqrt (T0 * T0)).
    2:{ replace (1 * (0 * (T * T) + T0 * T0)) with (T0 * T0) by ring. ring. }
    rewrite sqrt_square by auto.
    assert (RZ : @rc R A g ch (gK g) = @rc R A g ch 0) by (rewrite E0; reflexivity). rewrite RZ. cbn [rc].
    specialize (MA I J). rewrite E0 in MA. specialize (MA HI HJ). unfold df in MA. 
    destruct (dec_holdsA A p m) as [_ HD]. fold ch0 in HD. specialize (HD I J). rewrite E0 in HD. rewrite HD in MA by auto. cbn [ap] in MA.
    rewrite E0. exact MA.
  - assert (HK : (0 < gK g)%nat) by lia. assert (HN : (0 < nsteps p)%nat) by (rewrite <- (K_nsteps p HA); auto).
    pose proof (local_moved u eta A HR Hu Heta g (geom_wf p HA) ch0 ch (@padf p R A m) (dec_holdsA A p m) I J B T T0 HI HJ HK HB0 HT HT0 BND MD MA) as LM.
    rewrite (win_area p HA HN), (cone_cup p HA HN), SPW in LM.
    rewrite (underflow_kap u eta p HA). unfold float_rel, spread. rewrite <- (stepg_gain u p HA), <- (K_nsteps p HA). exact LM.
Qed.

(** any channels in place of the decomposed ones *)
Theorem local_compose b data (chs : list (decomposition R)) B T T0 : @reachable R A p b ->
  (1 <= signum p)%Z -> Z.of_nat (length data) = signum p -> Forall (shaped p) data ->
  Forall (fun m => Forall (fun v => Rabs v <= B) (elts m)) data -> 0 <= T -> 0 <= T0 ->
  length chs = length data -> Forall (has_layout p) chs ->
  exists b0 out, @decompose R A b data null_denoiser = Ok (true, b0) /\
    @compose R A (Buffer p chs) 0 = Ok (true, out) /\ length out = length data /\
    forall c m ch0 ch o, nth_error data c = Some m -> nth_error (bdec b0) c = Some ch0 -> nth_error chs c = Some ch ->
      nth_error out c = Some o -> within_each T T0 p ch0 ch ->
      sized (drows p) (dcols p) o /\
      forall i j, (i < drows p)%nat -> (j < dcols p)%nat ->
        Rabs (at_ o i j - at_ m i j) <=
          float_rel u p * (sqrt (INR (window_area p)) * B) + underflow u eta p + step_gain u p ^ nsteps p * spread p T T0.
Proof.
  intros Hr Hsig HL HS HB HT HT0 HLc HLay. eexists _, _. split; [apply (@dec_okA R A p HA b data); auto|].
  split.
  { apply (compose_ok p HA); cbn [bpar bdec].
    - reflexivity.
    - exact (eq_trans (f_equal Z.of_nat HLc) HL).
    - apply Forall_forall. auto.
    - pose proof (acc_steps p HA). lia. }
  rewrite map_length. cbn [bdec]. split; auto. intros c m ch0 ch o Hm Hc0 Hc Ho HW.
  rewrite nth_error_map, Hc in Ho. inversion Ho; subst o; clear Ho.
  rewrite nth_error_map, Hm in Hc0. inversion Hc0; subst ch0; clear Hc0.
  apply nth_error_In in Hm. apply nth_error_In in Hc. rewrite Forall_forall in HS, HB, HLay.
  split; [apply (com_sized0 A p HA)|]. intros i j Hi Hj. apply com_local; auto.
Qed.

(** the decomposed channels themselves *)
Lemma within_refl ch : within_each 0 0 p ch ch.
Proof.
  intros k m m' H H' i x y Hx Hy. rewrite H in H'. inversion H'; subst m'. rewrite Hx in Hy. inversion Hy; subst y.
  unfold Rminus. rewrite Rplus_opp_r, Rabs_R0. destruct (_ <? _)%nat; lra.
Qed.
Lemma spread_0 : spread p 0 0 = 0.
Proof. unfold spread. rewrite !Rmult_0_r, Rplus_0_r, Rmult_0_r, sqrt_0. reflexivity. Qed.
Theorem local_samples b data B : @reachable R A p b ->
  (1 <= signum p)%Z -> Z.of_nat (length data) = signum p -> Forall (shaped p) data ->
  Forall (fun m => Forall (fun v => Rabs v <= B) (elts m)) data ->
  exists b' out, @decompose R A b data null_denoiser = Ok (true, b') /\ @compose R A b' 0 = Ok (true, out) /\
    length out = length data /\
    forall c m o, nth_error data c = Some m -> nth_error out c = Some o ->
      sized (drows p) (dcols p) o /\
      forall i j, (i < drows p)%nat -> (j < dcols p)%nat ->
        Rabs (at_ o i j - at_ m i j) <= float_rel u p * (sqrt (INR (window_area p)) * B) + underflow u eta p.
Proof.
  intros Hr Hsig HL HS HB. eexists _, _. split; [apply (@dec_okA R A p HA b data); auto|].
  split; [apply (@com_okA R A p HA data 0); auto; lia|].
  rewrite map_length. split; auto. intros c m o Hm Ho.
  rewrite nth_error_map, Hm in Ho. inversion Ho; subst o; clear Ho. apply nth_error_In in Hm. rewrite Forall_forall in HS, HB.
  split; [apply (com_sized0 A p HA)|]. intros i j Hi Hj.
  pose proof (com_local m (@dec_of p R A null_denoiser m) B 0 0 i j (HS m Hm)) as H. rewrite spread_0, Rmult_0_r, Rplus_0_r in H.
  apply H; auto using Rle_refl, within_refl. apply dec_of_layout; auto. apply null_keepsA.
Qed.
End Round.

(** ** the library's threshold denoiser in exact arithmetic *)
Lemma threshold_within p (b b0 b1 : buffer R) data ta tb T c ch0 ch1 : accepted p -> reachable p b -> 0 <= T ->
  (forall s, (s < nsteps p)%nat -> ta * INR s + tb <= T) ->
  (1 <= signum p)%Z -> Z.of_nat (length data) = signum p -> Forall (shaped p) data ->
  decompose b data null_denoiser = Ok (true, b0) -> decompose b data (threshold_denoiser ta tb) = Ok (true, b1) ->
  nth_error (bdec b0) c = Some ch0 -> nth_error (bdec b1) c = Some ch1 -> within_each T 0 p ch0 ch1.
Proof.
  intros HA Hr HT Hthr Hsig HL HS E0 E1 H0 H1.
  destruct (threshold_in_decompose p b b data ta tb HA Hr Hsig HL HS) as (b1' & b0' & F1 & F0 & HD).
  rewrite E1 in F1. rewrite E0 in F0. inversion F1; inversion F0; subst b1' b0'. clear F1 F0.
  destruct (HD c ch1 ch0) as [HDa HDd]; auto.
  intros k d0 d1 Hk0 Hk1 i x y Hx Hy.
  assert (Hlk : has_layout p ch0).
  { pose proof (@dec_okA R exactR p HA b data Hr Hsig HL HS) as F. rewrite E0 in F. inversion F; subst b0.
    cbn [bdec] in H0. rewrite nth_error_map in H0. destruct (nth_error data c); [|discriminate]. inversion H0; subst ch0. apply dec_of_layout; auto. apply null_keepsA. }
  assert (Hk : (k < nsteps p * bands p + 1)%nat).
  { destruct Hlk as [Hlk _]. rewrite <- Hlk. apply nth_error_Some. congruence. }
  destruct (Nat.ltb_spec k (nsteps p * bands p)) as [Hlt|Hge].
  - destruct (nth_split p k HA Hlt) as (s & ib & -> & Hs & Hib).
    pose proof (HDd s ib d1 d0 Hs Hib Hk1 Hk0) as E. rewrite E, nth_error_map, Hx in Hy. cbn [option_map] in Hy.
    inversion Hy; subst y. unfold get_threshold. cbn [mgt mabs mnat aadd amul a0 realMag exactR].
    destruct (Rlt_dec (ta * INR s + tb) (Rabs x)) as [Hl|Hg].
    + replace (x - x) with 0 by ring. rewrite Rabs_R0. auto.
    + replace (0 - x) with (- x) by ring. rewrite Rabs_Ropp. specialize (Hthr s Hs). lra.
  - assert (k = nsteps p * bands p)%nat by lia. subst k. rewrite HDa, Hk0 in Hk1. inversion Hk1; subst d1. rewrite Hx in Hy. inversion Hy; subst y.
    replace (x - x) with 0 by ring. rewrite Rabs_R0. lra.
Qed.
Theorem local_threshold p b data ta tb B T : accepted p -> reachable p b -> 0 <= T ->
  (forall s, (s < nsteps p)%nat -> ta * INR s + tb <= T) ->
  (1 <= signum p)%Z -> Z.of_nat (length data) = signum p -> Forall (shaped p) data ->
  Forall (fun m => Forall (fun v => Rabs v <= B) (elts m)) data ->
  exists b1 out, decompose b data (threshold_denoiser ta tb) = Ok (true, b1) /\
    compose b1 0 = Ok (true, out) /\ length out = length data /\
    forall c m o, nth_error data c = Some m -> nth_error out c = Some o ->
      sized (drows p) (dcols p) o /\
      forall i j, (i < drows p)%nat -> (j < dcols p)%nat ->
        Rabs (at_ o i j - at_ m i j) <=
          rel_err p * (sqrt (INR (window_area p)) * B) + gain_exact p * (T * sqrt (INR (cone p * (nsteps p * bands p)))).
Proof.
  intros HA Hr HT Hthr Hsig HL HS HB.
  assert (KS : keeps_shape (threshold_denoiser ta tb)) by apply threshold_keeps.
  destruct (local_compose 0 0 exactR exact_rounding (Rle_refl 0) (Rle_refl 0) p HA b data (map (@dec_of p R exactR (threshold_denoiser ta tb)) data) B T 0)
    as (b0 & out & E0 & Ec & Hlen & Hall); auto using Rle_refl.
  { apply map_length. }
  { apply Forall_forall. intros ch Hin. apply in_map_iff in Hin as (m & <- & _). apply dec_of_layout; auto. }
  assert (E1 : decompose b data (threshold_denoiser ta tb) = Ok (true, Buffer p (map (@dec_of p R exactR (threshold_denoiser ta tb)) data)))
    by (apply (safe_ok p); auto).
  eexists. exists out. split; [exact E1|]. split; [exact Ec|]. split; auto. intros c m o Hm Ho.
  assert (N0 : exists ch0, nth_error (bdec b0) c = Some ch0).
  { pose proof (@dec_okA R exactR p HA b data Hr Hsig HL HS) as F. rewrite E0 in F. inversion F; subst b0.
    cbn [bdec]. rewrite nth_error_map, Hm. cbn [option_map]. eauto. }
  destruct N0 as (ch0 & N0).
  assert (N1 : nth_error (map (@dec_of p R exactR (threshold_denoiser ta tb)) data) c = Some (@dec_of p R exactR (threshold_denoiser ta tb) m))
    by (rewrite nth_error_map, Hm; reflexivity).
  destruct (Hall c m ch0 _ o Hm N0 N1 Ho) as [Hsz Herr].
  { eapply (threshold_within p b b0 _ data ta tb T c); eauto. }
  split; auto. intros i j Hi Hj. specialize (Herr i j Hi Hj).
  rewrite float_rel_0, underflow_0, step_gain_0, Rplus_0_r in Herr. fold (gain_exact p) in Herr.
  eapply Rle_trans; [exact Herr|]. apply Req_le. f_equal. f_equal. unfold spread.
  replace (INR (cone p) * (INR (nsteps p * bands p) * (T * T) + 0 * 0)) with (INR (cone p * (nsteps p * bands p)) * (T * T))
    by (rewrite (mult_INR (cone p)); ring).
  rewrite sqrt_mult by (try apply pos_INR; nra). rewrite sqrt_square by auto. ring.
Qed.
