(** * P_Cover2: spans, for the API. *)
Require Import List Bool Arith ZArith Lia Psatz.
Require Import ZifyBool.
Require Import Verif.M_Base Verif.M_Params Verif.M_Padding Verif.M_Wavelet Verif.M_Buffer Verif.M_Denoise.
Require Import Verif.S_Params Verif.S_Padding Verif.S_Buffer Verif.S_Local Verif.S_Preview Verif.S_Cover.
Require Import Verif.P_Base Verif.P_Wavelet Verif.P_Buffer Verif.P_Impl Verif.P_Api Verif.P_Api2.
Require Import Verif.P_Rec Verif.P_Exact Verif.P_Round2 Verif.P_Round3.
Require Import Verif.P_Loc Verif.P_Loc2 Verif.P_Loc3 Verif.P_Loc4 Verif.P_Denoise Verif.P_Cover.
Import ListNotations.
Open Scope nat_scope.

Section Acc.
Variable p : params.
Hypothesis HA : accepted p.
Notation g := (geom_of p).
Let Gw : gwf g := geom_wf p HA.
Context {T : Type} {AT : Arith T}.

Lemma cov_covers d n c r : cov (Z.to_nat (gt g)) d n c r <-> covers p d n c r.
Proof. unfold cov, covers, sup, support. rewrite (geom_t p HA). reflexivity. Qed.

Lemma elem_mel (m : mat T) i j : mwf m -> i < rows m -> j < cols m -> elem m i j = Some (mel a0 m i j).
Proof. intros W Hi Hj. unfold elem, mel. apply nth_error_nth'. unfold mwf in W. rewrite W. nia. Qed.

Lemma depth_detail s b : s < nsteps p -> b < bands p -> depth p (s * bands p + b) = S s.
Proof.
  intros Hs Hb. unfold depth. destruct (Nat.ltb_spec (s * bands p + b) (nsteps p * bands p)); [|nia].
  rewrite Nat.div_add_l, Nat.div_small by lia. lia.
Qed.
Lemma depth_approx : depth p (nsteps p * bands p) = nsteps p.
Proof. unfold depth. rewrite Nat.ltb_irrefl. reflexivity. Qed.
Lemma bands_pos : 0 < bands p.
Proof. rewrite <- (spw_bands p HA). apply spw_pos. Qed.
(** every subband is a detail or the approximation *)
Lemma band_cases (ch : list (mat T)) q x : has_layout p ch -> nth_error ch q = Some x ->
  (exists s b, s < nsteps p /\ b < bands p /\ q = s * bands p + b) \/ q = nsteps p * bands p.
Proof.
  intros (L & _) H. assert (Q : q < length ch) by (apply nth_error_Some; congruence). rewrite L in Q.
  pose proof bands_pos as B0. destruct (Nat.eq_dec q (nsteps p * bands p)); [right; auto|left].
  exists (q / bands p), (q mod bands p). split; [apply Nat.div_lt_upper_bound; lia|].
  split; [apply Nat.mod_upper_bound; lia|]. pose proof (Nat.div_mod q (bands p) ltac:(lia)). lia.
Qed.
Lemma depth_sized (ch : list (mat T)) q x : has_layout p ch -> nth_error ch q = Some x ->
  sized (level_rows p (depth p q)) (level_cols p (depth p q)) x.
Proof.
  intros HL H. destruct (band_cases ch q x HL H) as [(s & b & Hs & Hb & ->)| ->].
  - rewrite depth_detail by auto. replace (S s) with (s + 1) by lia. apply HL in H; auto.
  - rewrite depth_approx. apply HL in H; auto.
Qed.
Lemma depth_le q : q < nsteps p * bands p + 1 -> depth p q <= nsteps p.
Proof.
  intros H. unfold depth. destruct (Nat.ltb_spec q (nsteps p * bands p)); [|lia].
  pose proof bands_pos. assert (q / bands p < nsteps p) by (apply Nat.div_lt_upper_bound; lia). lia.
Qed.

(** ** Decompose *)
Lemma null_span (m m2 : mat T) q x x2 i j : shaped p m -> shaped p m2 ->
  nth_error (dec_of p null_denoiser m) q = Some x -> nth_error (dec_of p null_denoiser m2) q = Some x2 ->
  i < rows x -> j < cols x ->
  (forall r v, r < level_rows p 0 -> v < level_cols p 0 -> spans p 0 q i j r v -> padded_elem p m r v = padded_elem p m2 r v) ->
  elem x i j = elem x2 i j.
Proof.
  intros (W & Rm & Cm) (W' & Rm' & Cm') Hx Hx2 Hi Hj AG.
  pose proof (dec_of_layout p HA null_denoiser m null_keepsA) as L1. pose proof (dec_of_layout p HA null_denoiser m2 null_keepsA) as L2.
  pose proof (depth_sized _ _ _ L1 Hx) as (Wx & Rx & Cx). pose proof (depth_sized _ _ _ L2 Hx2) as (Wx2 & Rx2 & Cx2).
  rewrite !elem_mel by (auto; congruence). f_equal.
  assert (PD : same_on g (padf p m) (padf p m2) (depth p q) i j).
  { intros r v Hr Hv Cr Cv. apply padf_elem; auto. rewrite (hs_level p HA) in *. rewrite (ws_level p HA) in *.
    apply AG; auto. split; rewrite Nat.sub_0_r; apply cov_covers; auto. }
  rewrite Rx in Hi. rewrite Cx in Hj.
  assert (CE : forall (mm : mat T) y, nth_error (dec_of p null_denoiser mm) q = Some y -> mel a0 y i j = chf (dec_of p null_denoiser mm) q i j).
  { intros mm y Hy. unfold chf. rewrite (nth_error_nth _ _ mempty Hy). reflexivity. }
  rewrite (CE m x Hx), (CE m2 x2 Hx2).
  destruct (band_cases _ _ _ L1 Hx) as [(s & b & Hs & Hb & ->)| ->].
  - rewrite depth_detail in * by auto. rewrite <- (hs_level p HA) in Hi. rewrite <- (ws_level p HA) in Hj.
    rewrite <- (K_nsteps p HA) in Hs. rewrite <- (spw_bands p HA) in *.
    assert (DX : forall x : nat -> nat -> T, exists d, nth_error (detf g x s) b = Some d).
    { intros y. rewrite <- (detf_length g y s) in Hb. destruct (nth_error (detf g y s) b) eqn:E; eauto. apply nth_error_None in E. lia. }
    destruct (DX (padf p m)) as (d & Hd). destruct (DX (padf p m2)) as (d' & Hd').
    rewrite (chf_detail p m s b d) by auto. rewrite (chf_detail p m2 s b d') by auto.
    rewrite (ana_det g Gw (padf p m) s b i j d) by auto. rewrite (ana_det g Gw (padf p m2) s b i j d') by auto.
    destruct (off_pos g Gw s b i j Hs Hb Hi Hj) as (O1 & O2 & O3 & O4).
    apply (ANA_cov g Gw); auto; [|rewrite O3, O4; auto]. intros i' j' Hi' Hj' Hsame.
    apply (ap_cov g Gw (padf p m) (padf p m2) s ltac:(lia)); auto.
  - rewrite depth_approx in *. rewrite <- (hs_level p HA) in Hi. rewrite <- (ws_level p HA) in Hj.
    rewrite <- (K_nsteps p HA) in *. rewrite <- (spw_bands p HA) in *. rewrite !chf_approx by auto.
    apply (ap_cov g Gw (padf p m) (padf p m2) (gK g)); auto.
Qed.

(** a pointwise denoiser *)
Lemma pointwise_keeps (den : denoiser T) : pointwise den -> keeps_shape den.
Proof.
  intros (f & H1 & H2). split.
  - intros l s. rewrite H1. apply map_length.
  - intros m s W. rewrite H2 by auto. unfold sized, mwf in *. cbn [rows cols elts]. rewrite map_length. auto.
Qed.
Lemma null_pointwise : pointwise (@null_denoiser T).
Proof.
  exists (fun _ x => x). split; intros; rewrite map_id; auto. destruct m; reflexivity.
Qed.

Theorem decompose_spans (b b2 : buffer T) data data2 den :
  reachable p b -> reachable p b2 -> pointwise den -> (1 <= signum p)%Z ->
  Z.of_nat (length data) = signum p -> Forall (shaped p) data -> Z.of_nat (length data2) = signum p -> Forall (shaped p) data2 ->
  exists b' b2', decompose b data den = Ok (true, b') /\ decompose b2 data2 den = Ok (true, b2') /\
    length (bdec b') = length data /\ length (bdec b2') = length data2 /\
    forall c c2 m m2 ch ch2 q x x2,
      nth_error data c = Some m -> nth_error data2 c2 = Some m2 ->
      nth_error (bdec b') c = Some ch -> nth_error (bdec b2') c2 = Some ch2 ->
      nth_error ch q = Some x -> nth_error ch2 q = Some x2 ->
      forall i j, i < rows x -> j < cols x ->
        (forall r v, r < level_rows p 0 -> v < level_cols p 0 -> spans p 0 q i j r v -> padded_elem p m r v = padded_elem p m2 r v) ->
        elem x i j = elem x2 i j /\ exists y, elem x i j = Some y.
Proof.
  intros Hr Hr2 HP Hs HL HS HL2 HS2. pose proof (pointwise_keeps den HP) as KS.
  pose proof (safe_ok p b data den HA Hr KS Hs HL HS) as E1.
  pose proof (safe_ok p b2 data2 den HA Hr2 KS Hs HL2 HS2) as E2.
  eexists _, _. split; [exact E1|]. split; [exact E2|]. cbn [bdec]. rewrite !map_length. split; auto. split; auto.
  intros c c2 m m2 ch ch2 q x x2 Hm Hm2 Hc Hc2 Hx Hx2 i j Hi Hj AG.
  destruct (denoiser_effect p b _ data den HA Hr Hs HL HS E1) as (b0 & N1 & _ & F1).
  destruct (denoiser_effect p b2 _ data2 den HA Hr2 Hs HL2 HS2 E2) as (b02 & N2 & _ & F2).
  pose proof (dec_okA p HA b data Hr Hs HL HS) as D1. pose proof (dec_okA p HA b2 data2 Hr2 Hs HL2 HS2) as D2.
  rewrite D1 in N1. injection N1 as <-. rewrite D2 in N2. injection N2 as <-. cbn [bdec] in F1, F2.
  rewrite nth_error_map, Hm in Hc. cbn in Hc. injection Hc as <-.
  rewrite nth_error_map, Hm2 in Hc2. cbn in Hc2. injection Hc2 as <-.
  specialize (F1 c _ _ (map_nth_error _ _ _ Hm) (map_nth_error _ _ _ Hm)) as (_ & (a & A1 & A0) & F1).
  specialize (F2 c2 _ _ (map_nth_error _ _ _ Hm2) (map_nth_error _ _ _ Hm2)) as (_ & (a2 & A12 & A02) & F2).
  assert (Sm : shaped p m) by (rewrite Forall_forall in HS; apply HS; eapply nth_error_In; eauto).
  assert (Sm2 : shaped p m2) by (rewrite Forall_forall in HS2; apply HS2; eapply nth_error_In; eauto).
  pose proof (dec_of_layout p HA den m KS) as L1. pose proof (dec_of_layout p HA den m2 KS) as L2.
  pose proof (depth_sized _ _ _ L1 Hx) as (Wx & Rx & Cx).
  split; [|rewrite elem_mel by auto; eauto].
  pose proof (dec_of_layout p HA null_denoiser m null_keepsA) as L01.
  pose proof (dec_of_layout p HA null_denoiser m2 null_keepsA) as L02.
  destruct (band_cases _ _ _ L1 Hx) as [(s & bb & Hss & Hbb & ->)| ->].
  - destruct (F1 s bb Hss Hbb) as (d & Hd & Hd1). destruct (F2 s bb Hss Hbb) as (d2 & Hd2 & Hd12).
    assert (x = denoised p den s d) by congruence. assert (x2 = denoised p den s d2) by congruence. subst x x2.
    pose proof (depth_sized _ _ _ L01 Hd) as (Wd & Rd & Cd). pose proof (depth_sized _ _ _ L02 Hd2) as (Wd2 & Rd2 & Cd2).
    destruct HP as (f & P1 & P2).
    assert (EL : forall y : mat T, mwf y -> rows y = level_rows p (depth p (s * bands p + bb)) -> cols y = level_cols p (depth p (s * bands p + bb)) ->
      elem (denoised p den s y) i j = option_map (f s) (elem y i j)).
    { intros y Wy Ry Cy. unfold denoised, elem. destruct (is_1d p) eqn:E1d.
      - cbn zeta. rewrite P1. cbn [elts cols]. rewrite nth_error_map.
        rewrite Cy. unfold level_cols. rewrite E1d. reflexivity.
      - rewrite P2 by auto. cbn [elts cols]. rewrite nth_error_map. reflexivity. }
    rewrite !EL by auto. f_equal.
    apply (null_span m m2 (s * bands p + bb) d d2); auto; congruence.
  - assert (x = a) by congruence. assert (x2 = a2) by congruence. subst x x2.
    apply (null_span m m2 (nsteps p * bands p) a a2); auto.
Qed.

(** ** Compose *)
Lemma com_elemk k (ch : decomposition T) i j : i < small_rows p k -> j < small_cols p k ->
  elem (com_of p k ch) i j =
  Some ((if 0 <? k then ascale (dimension p) k else fun y => y) (rc g ch (gK g - k) (small_row p k i) (small_col p k j))).
Proof.
  intros Hi Hj. unfold com_of, scalem. rewrite (cropfA p HA).
  change (crows p k) with (small_rows p k). change (ccols p k) with (small_cols p k).
  assert (E : elem (mk (small_rows p k) (small_cols p k) (fun i j => rc g ch (gK g - k) (offk_r p k + i) (offk_c p k + j))) i j
     = Some (rc g ch (gK g - k) (small_row p k i) (small_col p k j))).
  { unfold elem, mk; cbn [elts cols]. rewrite nth_error_map_seq by nia. f_equal.
    rewrite Nat.div_add_l, Nat.div_small by lia. rewrite (Nat.add_comm (i * small_cols p k) j), Nat.mod_add, Nat.mod_small by lia.
    f_equal; unfold small_row, small_col, offk_r, offk_c; change (crows p k) with (small_rows p k); change (ccols p k) with (small_cols p k); lia. }
  destruct (0 <? k); auto. unfold elem in *. cbn [elts cols mk] in *. rewrite nth_error_map, E. reflexivity.
Qed.

Lemma com_span k (ch ch2 : decomposition T) i j : k <= nsteps p -> has_layout p ch -> has_layout p ch2 ->
  i < small_rows p k -> j < small_cols p k ->
  (forall q x x2, k * bands p <= q -> nth_error ch q = Some x -> nth_error ch2 q = Some x2 ->
     forall r v, r < rows x -> v < cols x -> spans p k q r v (small_row p k i) (small_col p k j) -> elem x r v = elem x2 r v) ->
  elem (com_of p k ch) i j = elem (com_of p k ch2) i j.
Proof.
  intros Hk L1 L2 Hi Hj AG. rewrite !com_elemk by auto. do 2 f_equal.
  assert (EK : gK g - (gK g - k) = k) by (rewrite (K_nsteps p HA); lia).
  assert (CH : forall q r v, q < nsteps p * bands p + 1 -> k * bands p <= q -> r < level_rows p (depth p q) -> v < level_cols p (depth p q) ->
     spans p k q r v (small_row p k i) (small_col p k j) -> chf ch q r v = chf ch2 q r v).
  { intros q r v Hq Hkq Hr Hv HS.
    destruct (nth_error ch q) as [x|] eqn:Ex; [|apply nth_error_None in Ex; destruct L1 as [L1 _]; unfold decomposition in *; lia].
    destruct (nth_error ch2 q) as [x2|] eqn:Ex2; [|apply nth_error_None in Ex2; destruct L2 as [L2 _]; unfold decomposition in *; lia].
    pose proof (depth_sized _ _ _ L1 Ex) as (Wx & Rx & Cx). pose proof (depth_sized _ _ _ L2 Ex2) as (Wx2 & Rx2 & Cx2).
    pose proof (AG q x x2 Hkq Ex Ex2 r v ltac:(lia) ltac:(lia) HS) as E.
    rewrite !elem_mel in E by (auto; lia). injection E as E.
    unfold chf. rewrite (nth_error_nth _ _ mempty Ex), (nth_error_nth _ _ mempty Ex2). auto. }
  apply (rc_cov g Gw ch ch2 (gK g - k)); rewrite ?EK; try (rewrite (K_nsteps p HA); lia).
  - rewrite (hs_level p HA). apply (off_in_r p HA). auto.
  - rewrite (ws_level p HA). apply (off_in_c p HA). auto.
  - intros s b r v Hs Hb Hr Hv Cr Cv. rewrite (K_nsteps p HA) in *. rewrite (spw_bands p HA) in *.
    rewrite (hs_level p HA) in *. rewrite (ws_level p HA) in *.
    pose proof (depth_detail s b ltac:(lia) Hb) as ED. apply CH; rewrite ?ED; auto; try nia.
    split; rewrite ED; apply cov_covers; auto.
  - intros r v Hr Hv Cr Cv. rewrite (K_nsteps p HA) in *. rewrite (spw_bands p HA) in *.
    rewrite (hs_level p HA) in *. rewrite (ws_level p HA) in *. 
    apply CH; rewrite ?depth_approx; auto; try nia. split; rewrite depth_approx; apply cov_covers; auto.
Qed.

Theorem compose_spans (chs chs2 : list (list (mat T))) k : k <= nsteps p ->
  Z.of_nat (length chs) = signum p -> Z.of_nat (length chs2) = signum p ->
  Forall (has_layout p) chs -> Forall (has_layout p) chs2 ->
  exists out out2, compose (Buffer p chs) (Z.of_nat k) = Ok (true, out) /\ compose (Buffer p chs2) (Z.of_nat k) = Ok (true, out2) /\
    length out = length chs /\ length out2 = length chs2 /\
    forall c c2 ch ch2 o o2, nth_error chs c = Some ch -> nth_error chs2 c2 = Some ch2 ->
      nth_error out c = Some o -> nth_error out2 c2 = Some o2 ->
      sized (small_rows p k) (small_cols p k) o /\ sized (small_rows p k) (small_cols p k) o2 /\
      forall i j, i < small_rows p k -> j < small_cols p k ->
        (forall q x x2, k * bands p <= q -> nth_error ch q = Some x -> nth_error ch2 q = Some x2 ->
           forall r v, r < rows x -> v < cols x -> spans p k q r v (small_row p k i) (small_col p k j) -> elem x r v = elem x2 r v) ->
        elem o i j = elem o2 i j.
Proof.
  intros Hk HL HL2 HF HF2. rewrite Forall_forall in HF, HF2.
  assert (HS : (0 <= Z.of_nat k <= steps p)%Z) by (unfold nsteps in Hk; pose proof (acc_steps p HA); lia).
  eexists _, _. split; [apply (compose_ok p HA); cbn [bpar bdec]; auto|]. split; [apply (compose_ok p HA); cbn [bpar bdec]; auto|].
  cbn [bdec]. rewrite Nat2Z.id, !map_length. split; auto. split; auto.
  intros c c2 ch ch2 o o2 Hc Hc2 Ho Ho2.
  pose proof (map_nth_error (com_of p k) c chs Hc) as Q1. pose proof (eq_trans (eq_sym Ho) Q1) as Q. injection Q as ->; clear Q1 Ho.
  pose proof (map_nth_error (com_of p k) c2 chs2 Hc2) as Q1. pose proof (eq_trans (eq_sym Ho2) Q1) as Q. injection Q as ->; clear Q1 Ho2.
  split; [apply com_of_sized|]. split; [apply com_of_sized|]. intros i j Hi Hj AG.
  apply com_span; auto; [apply HF|apply HF2]; eapply nth_error_In; eauto.
Qed.

(** one coefficient changed *)
Theorem edit_spans (chs chs2 : list (list (mat T))) k c0 q0 r0 v0 : k <= nsteps p ->
  Z.of_nat (length chs) = signum p -> length chs2 = length chs ->
  Forall (has_layout p) chs -> Forall (has_layout p) chs2 ->
  (forall c ch ch2 q x x2 r v, nth_error chs c = Some ch -> nth_error chs2 c = Some ch2 ->
     nth_error ch q = Some x -> nth_error ch2 q = Some x2 -> ~ (c = c0 /\ q = q0 /\ r = r0 /\ v = v0) -> r < rows x -> v < cols x ->
     elem x r v = elem x2 r v) ->
  exists out out2, compose (Buffer p chs) (Z.of_nat k) = Ok (true, out) /\ compose (Buffer p chs2) (Z.of_nat k) = Ok (true, out2) /\
    length out = length chs /\ length out2 = length chs /\
    forall c o o2, nth_error out c = Some o -> nth_error out2 c = Some o2 ->
      sized (small_rows p k) (small_cols p k) o /\ sized (small_rows p k) (small_cols p k) o2 /\
      forall i j, i < small_rows p k -> j < small_cols p k ->
        ~ (c = c0 /\ k * bands p <= q0 /\ spans p k q0 r0 v0 (small_row p k i) (small_col p k j)) ->
        elem o i j = elem o2 i j.
Proof.
  intros Hk HL HL2 HF HF2 ED. destruct (compose_spans chs chs2 k Hk HL ltac:(lia) HF HF2) as (out & out2 & E1 & E2 & L1 & L2 & H).
  exists out, out2. split; auto. split; auto. split; auto. split; [congruence|]. intros c o o2 Ho Ho2.
  destruct (nth_error chs c) as [ch|] eqn:Ec.
  2: { apply nth_error_None in Ec. assert (c < length out) by (apply nth_error_Some; congruence). lia. }
  destruct (nth_error chs2 c) as [ch2|] eqn:Ec2.
  2: { apply nth_error_None in Ec2. assert (c < length out2) by (apply nth_error_Some; congruence). lia. }
  destruct (H c c ch ch2 o o2 Ec Ec2 Ho Ho2) as (S1 & S2 & HH). split; auto. split; auto. intros i j Hi Hj NS.
  apply HH; auto. intros q x x2 Hq Hx Hx2 r v Hr Hv HS. apply (ED c ch ch2 q x x2 r v); auto.
  intros (-> & -> & -> & ->). apply NS. auto.
Qed.
End Acc.

Lemma threshold_pointwise {T} {A : Arith T} {M : Mag T} (a b : T) : pointwise (threshold_denoiser a b).
Proof.
  exists (thr_val a b). split.
  - intros l s. cbn [threshold_denoiser den1]. rewrite threshold1_ok. reflexivity.
  - intros m s W. cbn [threshold_denoiser den2]. rewrite threshold2_ok by auto. reflexivity.
Qed.
