(** * P_Size2: denoising makes compressed blobs smaller *)
Require Import List Bool Arith ZArith Lia Reals Lra.
Require Import ZifyBool.
Require Import Flocq.Core.Core Flocq.IEEE754.BinarySingleNaN.
Require Import Verif.M_Base Verif.M_Params Verif.M_Buffer Verif.M_Float Verif.M_Binary32 Verif.M_Denoise Verif.M_Mag32
  Verif.M_Archive Verif.M_SfCodec Verif.M_SfEqual Verif.M_Serializer.
Require Import Verif.S_Params Verif.S_Buffer Verif.S_Exact Verif.S_Round Verif.S_Stable Verif.S_Denoise Verif.S_Serializer Verif.S_Lossy Verif.S_Size.
Require Import Verif.P_Base Verif.P_Wavelet Verif.P_Buffer Verif.P_Impl Verif.P_Api Verif.P_Api2 Verif.P_Csr Verif.P_Serializer Verif.P_Blob Verif.P_Float Verif.P_Binary32 Verif.P_Bin2 Verif.P_Bin3
  Verif.P_Rel Verif.P_Round3 Verif.P_Dual3 Verif.P_BinMove2 Verif.P_DenoiseF Verif.P_Lossy Verif.P_Lossy2 Verif.P_Size.
Import ListNotations.
Open Scope R_scope.

Lemma zero_pattern s : is_zero (pattern (B754_zero s)) = true.
Proof. destruct s; vm_compute; reflexivity. Qed.

Lemma kept_zeroed d d' : rows d' = rows d -> cols d' = cols d -> kept (elts d) (elts d') ->
  zeroed (map_mat pattern d') (map_mat pattern d).
Proof.
  intros H1 H2 K. split; [exact H1|]. split; [exact H2|]. unfold map_mat. cbn [elts].
  induction K as [|x y l l' H K IH]; cbn [map]; constructor; auto.
  destruct H as [->| ->]; [left; reflexivity|right; apply zero_pattern].
Qed.

Lemma count_in (l : list word) (keep : list Z) :
  (forall i x, nth_error l i = Some x -> is_zero x = false -> In (Z.of_nat i) keep) ->
  (length (filter (fun x => negb (is_zero x)) l) <= length keep)%nat.
Proof.
  intros H. rewrite <- (places_count l 0), <- nz_places. apply NoDup_incl_length.
  - apply sorted_nodup, nz_sorted.
  - intros z Hz. apply in_map_iff in Hz as (e & <- & He). apply nz_in in He as (k & x & -> & Hk & Hx). cbn [fst]. eauto.
Qed.

Lemma gt_mono (x t1 t2 : f32) : is_finite t1 = true -> is_finite t2 = true -> B2R t1 <= B2R t2 ->
  mgt (mabs x) t2 = true -> mgt (mabs x) t1 = true.
Proof.
  intros F1 F2 H G. destruct x as [sx|sx| |sx mx ex Bx].
  - rewrite gt32 in * by auto. apply Rlt_bool_true. pose proof (Rlt_bool_spec (B2R t2) (Rabs (B2R (B754_zero sx : f32)))) as K. rewrite G in K.
    inversion K. lra.
  - destruct t1 as [[]|[]| |[]]; try discriminate; reflexivity.
  - rewrite nan_gt in G by reflexivity. discriminate.
  - rewrite gt32 in * by auto. apply Rlt_bool_true.
    pose proof (Rlt_bool_spec (B2R t2) (Rabs (B2R (B754_finite sx mx ex Bx : f32)))) as K. rewrite G in K. inversion K. lra.
Qed.

Section F.
Variable p : params.
Hypothesis HA : accepted p.

Lemma layout_sized (ch ch' : list (mat f32)) k d d' : has_layout p ch -> has_layout p ch' ->
  nth_error ch k = Some d -> nth_error ch' k = Some d' -> rows d' = rows d /\ cols d' = cols d.
Proof.
  intros (N & L & L2) (N' & L' & L2') H H'.
  assert (Hk : (k < nsteps p * bands p + 1)%nat) by (rewrite <- N; apply nth_error_Some; congruence).
  destruct (Nat.eq_dec k (nsteps p * bands p)) as [->|Hne].
  - destruct (L2 d H) as (_ & A & B), (L2' d' H') as (_ & A' & B'). split; congruence.
  - destruct (nth_split p k HA ltac:(lia)) as (s & i & -> & Hs & Hi).
    destruct (L s i d Hs Hi H) as (_ & A & B), (L' s i d' Hs Hi H') as (_ & A' & B'). split; congruence.
Qed.

Lemma denoised_sparser b data den b0 b1 : keeps_shape den -> keeps_or_zeroes den -> @reachable f32 binary32 p b ->
  (1 <= signum p)%Z -> Z.of_nat (length data) = signum p -> Forall (shaped p) data ->
  Forall all_finite data -> Forall (fun m => padded_energy p (values m) <= 2 ^ 220) data ->
  @decompose f32 binary32 b data null_denoiser = Ok (true, b0) ->
  @decompose f32 binary32 b data den = Ok (true, b1) ->
  sparser (patterns b1) (patterns b0) /\
  bpar b0 = p /\ Z.of_nat (length (bdec b0)) = signum p /\ (forall ch, In ch (bdec b0) -> has_layout p ch) /\
  bpar b1 = p /\ Z.of_nat (length (bdec b1)) = signum p /\ (forall ch, In ch (bdec b1) -> has_layout p ch).
Proof.
  intros HK HZ Hr Hsig HL HS HF HE E0 E1.
  assert (F0 : @decompose f32 binary32 b data null_denoiser = Ok (true, Buffer p (map (@dec_of p f32 binary32 null_denoiser) data)))
    by (apply (safe_ok p); auto; apply null_keepsA).
  assert (F1 : @decompose f32 binary32 b data den = Ok (true, Buffer p (map (@dec_of p f32 binary32 den) data)))
    by (apply (safe_ok p); auto).
  rewrite F0 in E0. rewrite F1 in E1. inversion E0; inversion E1; subst b0 b1. clear E0 E1 F0 F1.
  cbn [bpar bdec]. rewrite !map_length.
  split; [|split; [reflexivity|split; [exact HL|split; [|split; [reflexivity|split; [exact HL|]]]]]].
  2:{ intros ch Hin. apply in_map_iff in Hin as (m & <- & _). apply dec_of_layout; auto. apply null_keepsA. }
  2:{ intros ch Hin. apply in_map_iff in Hin as (m & <- & _). apply dec_of_layout; auto. }
  split; [reflexivity|]. cbn [bdec patterns map_buffer]. clear HL Hsig Hr. rewrite Forall_forall in HS, HF, HE.
  induction data as [|m data IH]; cbn [map]; constructor.
  - pose proof (denoised_kept p HA den m HK HZ (HS m (or_introl eq_refl)) (HF m (or_introl eq_refl)) (HE m (or_introl eq_refl))) as K.
    pose proof (dec_of_layout p HA (@null_denoiser f32) m null_keepsA : has_layout p (@dec_of p f32 binary32 null_denoiser m)) as L0.
    pose proof (dec_of_layout p HA den m HK : has_layout p (@dec_of p f32 binary32 den m)) as L1.
    revert K L0 L1. generalize (@dec_of p f32 binary32 null_denoiser m) (@dec_of p f32 binary32 den m).
    intros ch ch' K L0 L1.
    assert (Q : forall k d d', nth_error ch k = Some d -> nth_error ch' k = Some d' -> rows d' = rows d /\ cols d' = cols d)
      by (intros k d d' Hd Hd'; exact (layout_sized ch ch' k d d' L0 L1 Hd Hd')).
    clear L0 L1. induction K as [|x y l l' H K IHK]; cbn [map]; constructor.
    + destruct (Q 0%nat x y eq_refl eq_refl). apply kept_zeroed; auto.
    + apply IHK. intros k. exact (Q (S k)).
  - apply IH; intros; [apply HS|apply HF|apply HE]; right; auto.
Qed.

Lemma denoising_less b data den b0 b1 cd sf : keeps_shape den -> keeps_or_zeroes den -> @reachable f32 binary32 p b ->
  Forall (fun n => (1 <= n)%Z) (shape p) ->
  (Z.of_nat (level_rows p 0) < 2 ^ 31)%Z -> (Z.of_nat (level_cols p 0) < 2 ^ 31)%Z ->
  (Z.of_nat (level_rows p 0) * Z.of_nat (level_cols p 0) < 2 ^ 32)%Z ->
  (1 <= signum p)%Z -> Z.of_nat (length data) = signum p -> Forall (shaped p) data ->
  Forall all_finite data -> Forall (fun m => padded_energy p (values m) <= 2 ^ 220) data ->
  (1 <= sf)%Z -> padding_16 cd -> codec_total cd (33 - Z.min 31 sf) -> no_more_for_less cd (33 - Z.min 31 sf) ->
  @decompose f32 binary32 b data null_denoiser = Ok (true, b0) ->
  @decompose f32 binary32 b data den = Ok (true, b1) ->
  exists blob0 blob1, serialize cd (patterns b0) sf = Ok (Some blob0) /\ serialize cd (patterns b1) sf = Ok (Some blob1) /\
    (length blob1 <= length blob0)%nat.
Proof.
  intros HK HZ Hr Hpos S1 S2 S3 Hsig HL HS HF HE Hsf HP HT HM E0 E1.
  destruct (denoised_sparser b data den b0 b1) as (SP & P0 & L0 & Y0 & P1 & L1 & Y1); auto.
  destruct (patterns_storable p HA b0 Hpos S1 S2 S3 P0 L0 Y0) as (A1 & A2 & A3 & A4).
  destruct (patterns_storable p HA b1 Hpos S1 S2 S3 P1 L1 Y1) as (B1 & B2 & B3 & B4).
  destruct (serialize_full cd (patterns b0) sf A1 Hsf A4 HT A3) as (blob0 & H0).
  destruct (serialize_full cd (patterns b1) sf B1 Hsf B4 HT B3) as (blob1 & H1).
  exists blob0, blob1. split; auto. split; auto.
  apply (sparser_less cd (patterns b1) (patterns b0) sf); auto.
  intros N. unfold patterns, map_buffer in N. cbn [bdec] in N. destruct (bdec b0); [|discriminate]. cbn [length] in L0. lia.
Qed.

Lemma threshold_sparser b data (a1 c1 a2 c2 : f32) b1 b2 : @reachable f32 binary32 p b ->
  (1 <= signum p)%Z -> Z.of_nat (length data) = signum p -> Forall (shaped p) data ->
  (forall s, (s < nsteps p)%nat -> is_finite (get_threshold a1 c1 s) = true /\ is_finite (get_threshold a2 c2 s) = true /\
     B2R (get_threshold a1 c1 s) <= B2R (get_threshold a2 c2 s)) ->
  @decompose f32 binary32 b data (threshold_denoiser a1 c1) = Ok (true, b1) ->
  @decompose f32 binary32 b data (threshold_denoiser a2 c2) = Ok (true, b2) ->
  sparser (patterns b2) (patterns b1).
Proof.
  intros Hr Hsig HL HS HT E1 E2.
  assert (F : forall a c, @decompose f32 binary32 b data (threshold_denoiser a c) = Ok (true, Buffer p (map (@dec_of p f32 binary32 (threshold_denoiser a c)) data)))
    by (intros; apply (safe_ok p); auto; apply P_Denoise.threshold_keeps).
  rewrite F in E1. rewrite F in E2. inversion E1; inversion E2; subst b1 b2. clear E1 E2 F.
  split; [reflexivity|]. cbn [bdec patterns map_buffer]. clear HL Hsig Hr HS.
  induction data as [|m data IH]; cbn [map]; constructor; auto. clear IH.
  destruct (den_details (A := binary32) p m (threshold_denoiser a1 c1) HA) as (A1 & D1).
  destruct (den_details (A := binary32) p m (threshold_denoiser a2 c2) HA) as (A2 & D2).
  pose proof (dec_of_layout p HA (@null_denoiser f32) m null_keepsA : has_layout p (@dec_of p f32 binary32 null_denoiser m)) as L0.
  pose proof (dec_of_layout p HA (threshold_denoiser a1 c1) m (P_Denoise.threshold_keeps a1 c1) : has_layout p (@dec_of p f32 binary32 _ m)) as L1.
  pose proof (dec_of_layout p HA (threshold_denoiser a2 c2) m (P_Denoise.threshold_keeps a2 c2) : has_layout p (@dec_of p f32 binary32 _ m)) as L2.
  set (ch0 := @dec_of p f32 binary32 null_denoiser m) in *.
  set (ch1 := @dec_of p f32 binary32 (threshold_denoiser a1 c1) m) in *. set (ch2 := @dec_of p f32 binary32 (threshold_denoiser a2 c2) m) in *.
  assert (Q : forall (l l' : list (mat f32)), length l = length l' ->
    (forall k d d', nth_error l k = Some d -> nth_error l' k = Some d' -> zeroed (map_mat pattern d) (map_mat pattern d')) ->
    Forall2 zeroed (map (map_mat pattern) l) (map (map_mat pattern) l')).
  { clear. induction l as [|x l IH]; intros [|y l'] HL H; try discriminate; constructor.
    - exact (H 0%nat x y eq_refl eq_refl).
    - apply IH; [simpl in HL; lia|]. intros k. exact (H (S k)). }
  apply Q; [exact (eq_trans (proj1 L2) (eq_sym (proj1 L1)))|]. intros k d2 d1 H2 H1.
  destruct (layout_sized ch1 ch2 k d1 d2 L1 L2 H1 H2) as (R & C).
  assert (Hk : (k < nsteps p * bands p + 1)%nat) by (rewrite <- (proj1 L1); apply nth_error_Some; intros N; pose proof (eq_trans (eq_sym H1) N); discriminate).
  split; [exact R|]. split; [exact C|]. unfold map_mat. cbn [elts].
  destruct (Nat.eq_dec k (nsteps p * bands p)) as [->|Hne].
  - pose proof (eq_trans (eq_sym H2) (eq_trans A2 (eq_trans (eq_sym A1) H1))) as Q1. injection Q1 as <-. clear. induction (elts d2); cbn [map]; constructor; auto.
  - destruct (nth_split p k HA ltac:(lia)) as (s & i & -> & Hs & Hi).
    destruct (D1 s i Hs Hi) as (d0 & E0 & E1), (D2 s i Hs Hi) as (d0' & E0' & E2).
    pose proof (eq_trans (eq_sym E0) E0') as Q0. injection Q0 as <-.
    pose proof (eq_trans (eq_sym H1) E1) as Q1. injection Q1 as ->. pose proof (eq_trans (eq_sym H2) E2) as Q2. injection Q2 as ->.
    destruct L0 as (_ & L0 & _). destruct (L0 s i d0 Hs Hi E0) as (W & _).
    destruct (HT s Hs) as (T1 & T2 & T3).
    assert (G : forall a c, elts (denoised p (threshold_denoiser a c) s d0) = map (P_Denoise.thr_val a c s) (elts d0)).
    { intros a c. unfold denoised. destruct (is_1d p); cbn [elts den1 den2 threshold_denoiser].
      - rewrite P_Denoise.threshold1_ok. reflexivity.
      - rewrite P_Denoise.threshold2_ok by auto. reflexivity. }
    rewrite !G. clear - T1 T2 T3. induction (elts d0) as [|x l IH]; cbn [map]; constructor; auto.
    unfold P_Denoise.thr_val.
    assert (K : mgt (mabs x) (get_threshold a2 c2 s) = true -> mgt (mabs x) (get_threshold a1 c1 s) = true) by (apply gt_mono; auto).
    destruct (mgt (mabs x) (get_threshold a2 c2 s)); [|right; exact (zero_pattern false)]. left. rewrite K; reflexivity.
Qed.

Lemma simple_counts b data ne1 ne2 (level : f32) b1 : nth_element_on ordered ne1 -> nth_element_on ordered ne2 ->
  is_finite level = true -> 0 <= B2R level <= 1 -> @reachable f32 binary32 p b ->
  (Z.of_nat (level_rows p 0) * Z.of_nat (level_cols p 0) < 2 ^ 32)%Z ->
  (1 <= signum p)%Z -> Z.of_nat (length data) = signum p -> Forall (shaped p) data ->
  Forall all_finite data -> Forall (fun m => padded_energy p (values m) <= 2 ^ 220) data ->
  @decompose f32 binary32 b data (simple_denoiser ne1 ne2 level) = Ok (true, b1) ->
  forall c ch s i d, nth_error (bdec (patterns b1)) c = Some ch -> (s < nsteps p)%nat -> (i < bands p)%nat ->
    nth_error ch (s * bands p + i) = Some d ->
    let N := (rows d * cols d)%nat in
    exists drop, Rabs (INR drop - INR N * B2R level) <= 1 + INR N * B2R level / 2 ^ 22 + / 2 ^ 148 /\
      (length (nonzero_values d) <= N - Nat.min drop (N - 1))%nat.
Proof.
  intros C1 C2 FL HLv Hr S3 Hsig HL HS HF HE E1 c ch s i d Hc Hs Hi Hd N.
  assert (F1 : @decompose f32 binary32 b data (simple_denoiser ne1 ne2 level)
    = Ok (true, Buffer p (map (@dec_of p f32 binary32 (simple_denoiser ne1 ne2 level)) data)))
    by (apply (safe_ok p); auto; apply simple_shape).
  rewrite F1 in E1. inversion E1; subst b1. clear E1 F1. unfold patterns, map_buffer in Hc. cbn [bdec] in Hc.
  rewrite !nth_error_map in Hc. destruct (nth_error data c) as [m|] eqn:Em; [|discriminate]. cbn [option_map] in Hc.
  inversion Hc; subst ch. clear Hc. rewrite nth_error_map in Hd.
  rewrite Forall_forall in HS, HF, HE. pose proof (nth_error_In _ _ Em) as Im.
  pose proof (subbands_finite p HA m (HS m Im) (HF m Im) (HE m Im)) as FIN.
  destruct (den_details (A := binary32) p m (simple_denoiser ne1 ne2 level) HA) as (_ & D).
  destruct (D s i Hs Hi) as (d0 & N0 & N1). pose proof N1 as N1'. rewrite N1 in Hd. cbn [option_map] in Hd. inversion Hd; subst d. clear Hd.
  pose proof (dec_of_layout p HA (@null_denoiser f32) m null_keepsA : has_layout p (@dec_of p f32 binary32 null_denoiser m)) as L0.
  assert (Fd : all_finite d0) by (rewrite Forall_forall in FIN; apply FIN; eapply nth_error_In; eauto).
  destruct (layout_all p _ d0 L0 (nth_error_In _ _ N0)) as (lv & _ & W & R & C).
  destruct (level_le0 p lv) as (LR & LC).
  assert (Hsz : (Z.of_nat (rows d0 * cols d0) <= 2 ^ 62)%Z).
  { rewrite Nat2Z.inj_mul, R, C. nia. }
  unfold N, map_mat. cbn [rows cols]. unfold nonzero_values. cbn [elts]. unfold denoised.
  destruct (is_1d p) eqn:E1d.
  - cbn [rows cols elts den1 simple_denoiser].
    assert (Hsz1 : (Z.of_nat (length (elts d0)) <= 2 ^ 62)%Z) by (unfold mwf in W; rewrite W; exact Hsz).
    destruct (simple32_1 ne1 level (elts d0) C1 FL HLv Hsz1 Fd) as (out & keep & drop & Eo & V & ND & FK & LK & (HLo & KO) & _).
    rewrite Eo. cbn [total_of]. rewrite Nat.mul_1_r, HLo. exists drop. split; [exact V|].
    rewrite <- LK, <- (map_length Z.of_nat keep). apply count_in. intros k x Hk Hx. rewrite nth_error_map in Hk.
    destruct (nth_error out k) as [y|] eqn:Ey; [|discriminate]. cbn [option_map] in Hk. inversion Hk; subst x.
    assert (Hlt : (k < length (elts d0))%nat) by (rewrite <- HLo; apply nth_error_Some; rewrite Ey; discriminate).
    destruct (nth_error (elts d0) k) as [y0|] eqn:E0; [|apply nth_error_None in E0; lia].
    rewrite (KO k y0 E0) in Ey. destruct (existsb (Nat.eqb k) keep) eqn:EX.
    + apply existsb_exists in EX as (j & Hj & Ej). apply Nat.eqb_eq in Ej. subst j. apply in_map. exact Hj.
    + exfalso. inversion Ey; subst y. change (is_zero (pattern (B754_zero false)) = false) in Hx. rewrite zero_pattern in Hx. discriminate.
  - cbn [den2 simple_denoiser].
    destruct (simple32_2 ne2 level d0 W C2 FL HLv Hsz Fd) as (out & keep & drop & Eo & V & ND & FK & LK & (Wo & Ro & Co & KO) & _).
    rewrite Eo. cbn [total_of]. rewrite Ro, Co. exists drop. split; [exact V|].
    rewrite <- LK, <- (map_length (fun ij => Z.of_nat (fst ij * cols d0 + snd ij)) keep). apply count_in. intros k x Hk Hx. rewrite nth_error_map in Hk.
    destruct (nth_error (elts out) k) as [y|] eqn:Ey; [|discriminate]. cbn [option_map] in Hk. inversion Hk; subst x.
    assert (Hlt : (k < rows d0 * cols d0)%nat).
    { unfold mwf in Wo. rewrite Ro, Co in Wo. rewrite <- Wo. apply nth_error_Some. rewrite Ey. discriminate. }
    assert (C0 : (0 < cols d0)%nat) by (destruct (cols d0); lia).
    set (a := (k / cols d0)%nat). set (e := (k mod cols d0)%nat).
    assert (Ek : k = (a * cols d0 + e)%nat) by (rewrite Nat.mul_comm; apply Nat.div_mod; lia).
    assert (Ha : (a < rows d0)%nat) by (apply Nat.div_lt_upper_bound; lia).
    assert (He : (e < cols d0)%nat) by (apply Nat.mod_upper_bound; lia).
    destruct (nth_error (elts d0) k) as [y0|] eqn:E0; [|apply nth_error_None in E0; unfold mwf in W; lia].
    assert (G : mget d0 a e = Ok y0).
    { unfold mget. replace ((a <? rows d0)%nat && (e <? cols d0)%nat) with true by lia. rewrite <- Ek. apply rd_some. auto. }
    pose proof (KO a e y0 G) as G1. unfold mget in G1. rewrite Ro, Co in G1.
    replace ((a <? rows d0)%nat && (e <? cols d0)%nat) with true in G1 by lia. rewrite <- Ek in G1. apply rd_ok in G1.
    rewrite G1 in Ey. destruct (in_pos a e keep) eqn:EX.
    + unfold in_pos in EX. apply existsb_exists in EX as ((ja & je) & Hj & Ej). cbn [fst snd] in Ej. apply andb_true_iff in Ej as (J1 & J2).
      apply Nat.eqb_eq in J1, J2. subst ja je. rewrite Ek. apply (in_map (fun ij : nat * nat => Z.of_nat (fst ij * cols d0 + snd ij)) keep (a, e) Hj).
    + exfalso. inversion Ey; subst y. change (is_zero (pattern (B754_zero false)) = false) in Hx. rewrite zero_pattern in Hx. discriminate.
Qed.
End F.
