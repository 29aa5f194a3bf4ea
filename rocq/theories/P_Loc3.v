(** * P_Loc3: error of a single sample, independent of the size of the signal. *)
Require Import List Bool Arith ZArith QArith Qreals Lia Reals Lra Psatz.
Require Import ZifyBool.
Require Import Verif.M_Base Verif.M_Params Verif.M_Padding Verif.M_Wavelet Verif.M_Buffer Verif.M_Real.
Require Import Verif.S_Params Verif.S_Padding Verif.S_Buffer Verif.S_Exact Verif.S_Round Verif.S_Stable.
Require Import Verif.P_Base Verif.P_Wavelet Verif.P_Buffer Verif.P_Impl Verif.P_Api Verif.P_Api2.
Require Import Verif.P_Sum Verif.P_Lin Verif.P_PR Verif.P_L2 Verif.P_Rec Verif.P_Exact Verif.P_Round Verif.P_Round2 Verif.P_Round3.
Require Import Verif.P_Stable Verif.P_Stable2 Verif.P_Loc Verif.P_Loc2.
Import ListNotations.
Open Scope R_scope.

Section Round.
Variables (u eta : R) (A : Arith R).
Hypothesis (HR : rounding u eta A) (Hu : 0 <= u) (Heta : 0 <= eta).
Section Geom.
Variable g : geom.
Hypothesis G : gwf g.
Notation K := (gK g).
Notation tt := (Z.to_nat (gt g)).
Notation N2 s := (nrm (hs g s) (ws g s)).
Notation apA := (@ap R A g).
Notation rcA := (@rc R A g).
Notation a := (stepg u g).
Notation kp := (kap u eta g).

(** any subbands given as functions *)
Definition gbands (f : nat -> nat -> nat -> R) : decomposition R :=
  map (fun k => if Nat.ltb k (K * gspw g) then mk (hs g (S (k / gspw g))) (ws g (S (k / gspw g))) (f k)
                else mk (hs g K) (ws g K) (f k)) (seq 0 (K * gspw g + 1)).
Lemma chf_bands_d f s b i j : (s < K)%nat -> (b < gspw g)%nat -> (i < hs g (S s))%nat -> (j < ws g (S s))%nat ->
  @chf R A (gbands f) (s * gspw g + b) i j = f (s * gspw g + b)%nat i j.
Proof.
  intros Hs Hb Hi Hj. unfold chf, gbands.
  assert (s * gspw g + b < K * gspw g)%nat by nia.
  rewrite nth_map_seq by lia. destruct (Nat.ltb_spec (s * gspw g + b) (K * gspw g)); [|lia].
  replace ((s * gspw g + b) / gspw g)%nat with s by (rewrite Nat.div_add_l, Nat.div_small by lia; lia).
  apply mel_mk; auto.
Qed.
Lemma chf_bands_a f i j : (i < hs g K)%nat -> (j < ws g K)%nat -> @chf R A (gbands f) (K * gspw g) i j = f (K * gspw g)%nat i j.
Proof.
  intros Hi Hj. unfold chf, gbands. rewrite nth_map_seq by lia. rewrite Nat.ltb_irrefl. apply mel_mk; auto.
Qed.

(** the subbands of a signal *)
Definition gbandf (x : nat -> nat -> R) (k : nat) : nat -> nat -> R :=
  if Nat.ltb k (K * gspw g) then nth (k mod gspw g) (@detf R A g x (k / gspw g)) (fun _ _ => 0) else apA x K.
Lemma bands_hold x : holdsA A g (gbands (gbandf x)) x.
Proof.
  split.
  - intros s b d Hs Hd i j Hi Hj.
    assert (Hb : (b < gspw g)%nat) by (rewrite <- (@detf_length R A g x s); apply nth_error_Some; congruence).
    rewrite chf_bands_d by auto. unfold gbandf. assert (s * gspw g + b < K * gspw g)%nat by nia.
    destruct (Nat.ltb_spec (s * gspw g + b) (K * gspw g)); [|lia].
    replace ((s * gspw g + b) / gspw g)%nat with s by (rewrite Nat.div_add_l, Nat.div_small by lia; lia).
    replace ((s * gspw g + b) mod gspw g)%nat with b.
    + rewrite (nth_error_nth _ _ _ Hd). reflexivity.
    + rewrite Nat.add_comm, Nat.mod_add by lia. rewrite Nat.mod_small; auto.
  - intros i j Hi Hj. rewrite chf_bands_a by auto. unfold gbandf. rewrite Nat.ltb_irrefl. reflexivity.
Qed.

Lemma off_pos s b i j : (s < K)%nat -> (b < gspw g)%nat -> (i < hs g (S s))%nat -> (j < ws g (S s))%nat ->
  (offr b (hs g (S s)) i < hs g s)%nat /\ (offc b (ws g (S s)) j < ws g s)%nat /\
  rpos g s (offr b (hs g (S s)) i) = i /\ cpos g s (offc b (ws g (S s)) j) = j.
Proof.
  intros Hs Hb Hi Hj. pose proof (hs_step g s G Hs) as (Hh & _).
  assert (P : forall N y, (y < N)%nat -> pos N y = y /\ pos N (N + y) = y).
  { intros N y Hy. unfold pos. destruct (Nat.ltb_spec y N), (Nat.ltb_spec (N + y) N); lia. }
  destruct (P (hs g (S s)) i Hi) as [P1 P2]. destruct (P (ws g (S s)) j Hj) as [P3 P4].
  unfold offr, offc, rpos, cpos. destruct (gdim_cases g G) as [E|E].
  - unfold gspw in Hb. rewrite E in Hb. cbn [Nat.eqb] in Hb. replace b with 0%nat by lia. cbn [Nat.eqb].
    rewrite !(ws_1 g _ E) in *. repeat split; auto; lia.
  - pose proof (ws_step g s G E Hs) as (Hw & _). destruct (Nat.eqb b 1), (Nat.eqb b 0); repeat split; auto; lia.
Qed.

Variables (ch0 ch : decomposition R) (x : nat -> nat -> R).
Hypothesis H0 : holdsA A g ch0 x.
Variables (I J : nat) (B T T0 : R).
Hypothesis (HI : (I < hs g 0)%nat) (HJ : (J < ws g 0)%nat) (HK : (0 < K)%nat).
Hypothesis (HB : 0 <= B) (HT : 0 <= T) (HT0 : 0 <= T0).
Hypothesis BND : forall i j, (i < hs g 0)%nat -> (j < ws g 0)%nat -> Rabs (x i j) <= B.
Hypothesis MD : forall s b i j, (s < K)%nat -> (b < gspw g)%nat -> (i < hs g (S s))%nat -> (j < ws g (S s))%nat ->
  Rabs (df A ch0 ch (s * gspw g + b) i j) <= T.
Hypothesis MA : forall i j, (i < hs g K)%nat -> (j < ws g K)%nat -> Rabs (df A ch0 ch (K * gspw g) i j) <= T0.

(** the details above (I, J) are those of any signal that agrees on the window *)
Lemma det_loc x' ch' s b i j : holdsA A g ch' x' ->
  (forall i j, (i < hs g 0)%nat -> (j < ws g 0)%nat -> down (rdep g) (hs g) I K K i -> down (cdep g) (ws g) J K K j -> x i j = x' i j) ->
  (s < K)%nat -> (b < gspw g)%nat -> (i < hs g (S s))%nat -> (j < ws g (S s))%nat ->
  up (rdep g) (hs g) I (S s) i -> up (cdep g) (ws g) J (S s) j ->
  @chf R A ch0 (s * gspw g + b) i j = @chf R A ch' (s * gspw g + b) i j.
Proof.
  intros H' SM Hs Hb Hi Hj Ui Uj.
  rewrite (holdsA_det A g G ch0 x) by auto. rewrite (holdsA_det A g G ch' x') by auto.
  destruct (off_pos s b i j Hs Hb Hi Hj) as (O1 & O2 & O3 & O4).
  apply (ANA_loc2 g G I J x x' SM); auto; congruence.
Qed.
Lemma app_loc x' ch' i j : holdsA A g ch' x' ->
  (forall i j, (i < hs g 0)%nat -> (j < ws g 0)%nat -> down (rdep g) (hs g) I K K i -> down (cdep g) (ws g) J K K j -> x i j = x' i j) ->
  (i < hs g K)%nat -> (j < ws g K)%nat -> up (rdep g) (hs g) I K i -> up (cdep g) (ws g) J K j ->
  @chf R A ch0 (K * gspw g) i j = @chf R A ch' (K * gspw g) i j.
Proof.
  intros [_ H'] SM Hi Hj Ui Uj. destruct H0 as [_ H1]. rewrite H1, H' by auto.
  apply (ap_loc g G I J x x' SM); auto; rewrite Nat.sub_diag; auto.
Qed.

Theorem local_moved :
  Rabs (rcA ch K I J - x I J) <=
  (a ^ (2 * K) - 1) * (sqrt (INR (rwin g * cwin g)) * B) + 2 * INR K * a ^ (2 * K) * kp
  + a ^ K * sqrt (INR ((2 * tt - 1) * cup g) * (INR (K * gspw g) * (T * T) + T0 * T0)).
Proof.
  destruct (row_window g G I HI HK) as (ar & Har). destruct (col_window g G J HJ HK) as (ac & Hac).
  set (x' := clip ar (rwin g) (hs g 0) ac (cwin g) (ws g 0) x).
  assert (SM : forall i j, (i < hs g 0)%nat -> (j < ws g 0)%nat -> down (rdep g) (hs g) I K K i -> down (cdep g) (ws g) J K K j -> x i j = x' i j).
  { intros i j Hi Hj Di Dj. unfold x', clip. rewrite (inb_iv _ _ _ _ (Har i Di)), (inb_iv _ _ _ _ (Hac j Hj Dj)). reflexivity. }
  set (ch0' := gbands (gbandf x')).
  assert (H0' : holdsA A g ch0' x') by apply bands_hold.
  set (wr := fun s => inb (ua tt I s) (2 * tt - 1) (hs g s)).
  set (wc := fun s => inb (cua g J s) (cup g) (ws g s)).
  set (lv := fun k => if Nat.ltb k (K * gspw g) then S (k / gspw g) else K).
  set (f := fun k i j => @chf R A ch0' k i j + if wr (lv k) i && wc (lv k) j then df A ch0 ch k i j else 0).
  set (ch' := gbands f).
  assert (LV : forall s b, (s < K)%nat -> (b < gspw g)%nat -> lv (s * gspw g + b)%nat = S s).
  { intros s b Hs Hb. unfold lv. assert (s * gspw g + b < K * gspw g)%nat by nia.
    destruct (Nat.ltb_spec (s * gspw g + b) (K * gspw g)); [|lia]. rewrite Nat.div_add_l, Nat.div_small by lia. lia. }
  assert (LVK : lv (K * gspw g)%nat = K) by (unfold lv; rewrite Nat.ltb_irrefl; reflexivity).
  (* same composed sample *)
  assert (EQ : rcA ch K I J = rcA ch' K I J).
  { apply (rc_loc g G I J ch ch'); auto; try (rewrite Nat.sub_diag; auto; reflexivity).
    - intros s b i j Hs Hb Hi Hj Ui Uj. unfold ch'. rewrite chf_bands_d by auto. unfold f. rewrite LV by auto.
      unfold wr, wc. rewrite (inb_iv _ _ _ _ (row_up g G I (S s) HI HK Hs i Ui)), (inb_iv _ _ _ _ (col_up g G J (S s) HJ HK Hs j Hj Uj)).
      cbn [andb]. unfold df. rewrite (det_loc x' ch0' s b i j) by auto. ring.
    - intros i j Hi Hj Ui Uj. unfold ch'. rewrite chf_bands_a by auto. unfold f. rewrite LVK.
      unfold wr, wc. rewrite (inb_iv _ _ _ _ (row_up g G I K HI HK (Nat.le_refl _) i Ui)), (inb_iv _ _ _ _ (col_up g G J K HJ HK (Nat.le_refl _) j Hj Uj)).
      cbn [andb]. unfold df. rewrite (app_loc x' ch0' i j) by auto. ring. }
  assert (EX : x I J = x' I J).
  { apply SM; auto; apply up_down; auto; try (rewrite Nat.sub_diag; auto; reflexivity).
    - apply rdep_ex; auto.
    - apply cdep_ex; auto. }
  rewrite EQ, EX.
  pose proof (moved_err u eta A HR Hu Heta g G ch0' ch' x' H0' K (Nat.le_refl _)) as ME.
  rewrite Nat.sub_diag in ME. cbn [ap] in ME.
  eapply Rle_trans; [exact (nrm_elem (hs g 0) (ws g 0) (fun i j => rcA ch' K i j - x' i j) I J HI HJ)|].
  eapply Rle_trans; [exact ME|].
  pose proof (stepg_1 u Hu g) as S1.
  assert (1 <= a ^ (2 * K)) by (apply pow_R1_Rle; auto).
  assert (0 <= a ^ K) by (apply pow_le; lra).
  apply Rplus_le_compat; [apply Rplus_le_compat_r|].
  - apply Rmult_le_compat_l; [lra|]. apply nrm_clip; auto.
  - apply Rmult_le_compat_l; auto. apply sqrt_le_1_alt.
    assert (CNT : forall s (F : nat -> nat -> R) (V : R), 0 <= V ->
       (forall i j, (i < hs g s)%nat -> (j < ws g s)%nat -> Rabs (F i j) <= V) ->
       rsum2 (hs g s) (ws g s) (fun i j => sq (if wr s i && wc s j then F i j else 0)) <= INR ((2 * tt - 1) * cup g) * (V * V)).
    { intros s F V HV HF. pose proof (nrm_clip (ua tt I s) (2 * tt - 1) (hs g s) (cua g J s) (cup g) (ws g s) F V HV HF) as NC.
      assert (N0 := nrm_pos (hs g s) (ws g s) (clip (ua tt I s) (2 * tt - 1) (hs g s) (cua g J s) (cup g) (ws g s) F)).
      pose proof (nrm_sq (hs g s) (ws g s) (clip (ua tt I s) (2 * tt - 1) (hs g s) (cua g J s) (cup g) (ws g s) F)) as NS.
      match type of NS with _ = ?r => change r with (rsum2 (hs g s) (ws g s) (fun i j => sq (if wr s i && wc s j then F i j else 0))) in NS end.
      rewrite <- NS. unfold sq.
      apply Rle_trans with ((sqrt (INR ((2 * tt - 1) * cup g)) * V) * (sqrt (INR ((2 * tt - 1) * cup g)) * V)); [apply Rmult_le_compat; auto|].
      apply Req_le. rewrite <- (sqrt_sqrt (INR ((2 * tt - 1) * cup g))) at 3 by apply pos_INR. ring. }
    set (Q := INR ((2 * tt - 1) * cup g)) in *.
    rewrite moved_all.
    apply Rle_trans with (rsum (K * gspw g) (fun _ => Q * (T * T)) + Q * (T0 * T0)).
    + apply Rplus_le_compat.
      * apply rsum_le. intros k Hk. pose proof (spw_pos g) as Sp.
        set (s := (k / gspw g)%nat). set (b := (k mod gspw g)%nat).
        assert (Ek : k = (s * gspw g + b)%nat) by (unfold s, b; pose proof (Nat.div_mod k (gspw g) ltac:(lia)); lia).
        assert (Hb : (b < gspw g)%nat) by (apply Nat.mod_upper_bound; lia).
        assert (Hs : (s < K)%nat) by (apply Nat.div_lt_upper_bound; lia).
        eapply Rle_trans; [|apply (CNT (S s) (df A ch0 ch k) T HT); intros; rewrite Ek; apply MD; auto].
        apply Req_le. apply rsum2_ext. intros i j Hi Hj. f_equal. unfold df at 1. rewrite Ek.
        unfold ch'. rewrite chf_bands_d by auto. unfold f. rewrite LV by auto. ring.
      * eapply Rle_trans; [|apply (CNT K (df A ch0 ch (K * gspw g)) T0 HT0); intros; apply MA; auto].
        apply Req_le. apply rsum2_ext. intros i j Hi Hj. f_equal. unfold df at 1.
        unfold ch'. rewrite chf_bands_a by auto. unfold f. rewrite LVK. ring.
    + rewrite rsum_const. apply Req_le. ring.
Qed.
End Geom.
End Round.
