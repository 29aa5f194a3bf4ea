(** * P_Pyflow: proofs of C121 *)
Require Import List Bool Arith ZArith Reals Lra Lia ZifyBool.
Require Import Flocq.Core.Core Flocq.IEEE754.BinarySingleNaN.
Require Import Verif.M_Base Verif.M_Params Verif.M_Buffer Verif.M_Float Verif.M_Binary32 Verif.M_Denoise Verif.M_Mag32 Verif.M_SfEqual
  Verif.M_Archive Verif.M_Serializer Verif.M_Python Verif.M_Python3.
Require Import Verif.S_Params Verif.S_Buffer Verif.S_Exact Verif.S_Round Verif.S_Local Verif.S_Stable Verif.S_Denoise Verif.S_Serializer
  Verif.S_Lossy Verif.S_Python Verif.S_Pyflow.
Require Import Verif.P_Base Verif.P_Api2 Verif.P_Blob Verif.P_Lossy Verif.P_Lossy2 Verif.P_Python Verif.P_Denoise Verif.P_Binary32 Verif.P_DenoiseF Verif.P_Pipe Verif.T_Pipe.
Import ListNotations.
Open Scope Z_scope.

(** ** levels *)
Lemma level_as cd b level : 0 <= level < 256 -> py_serialize cd b level = serialize cd b level.
Proof. intros H. unfold py_serialize. rewrite (Z.mod_small level 256) by lia. replace (_ && _) with true by lia. reflexivity. Qed.
Lemma level_wraps cd b level : - 2 ^ 31 <= level < 2 ^ 31 -> py_serialize cd b level = serialize cd b (level mod 256).
Proof. intros H. unfold py_serialize. replace (_ && _) with true by lia. reflexivity. Qed.
Lemma serialize_31 cd b sf : 31 <= sf -> serialize cd b sf = serialize cd b 31.
Proof. intros H. unfold serialize. f_equal. unfold serializer_serialize. rewrite Z.min_l by lia. reflexivity. Qed.

Lemma floats_patterns (b : buffer f32) : floats (patterns b) = b.
Proof.
  destruct b as [p d]. unfold floats, patterns, map_buffer; cbn [bpar bdec]. f_equal.
  rewrite map_map. rewrite <- (map_id d) at 2. apply map_ext. intros ch. rewrite map_map. rewrite <- (map_id ch) at 2.
  apply map_ext. intros [r c l]. unfold map_mat; cbn [rows cols elts]. f_equal. rewrite map_map. rewrite <- (map_id l) at 2.
  apply map_ext. apply pattern_back.
Qed.

Section F.
Variable p : params.
Hypothesis HA : accepted p.
Hypothesis Hpos : Forall (fun n => 1 <= n) (shape p).
Hypothesis S1 : Z.of_nat (level_rows p 0) < 2 ^ 31.
Hypothesis S2 : Z.of_nat (level_cols p 0) < 2 ^ 31.
Hypothesis S3 : Z.of_nat (level_rows p 0) * Z.of_nat (level_cols p 0) < 2 ^ 32.

Lemma decomposed (b : buffer f32) data den b0 : @reachable f32 binary32 p b -> keeps_shape den ->
  1 <= signum p -> Z.of_nat (length data) = signum p -> Forall (shaped p) data ->
  decompose b data den = Ok (true, b0) ->
  bpar b0 = p /\ storable (patterns b0) /\ indexable (patterns b0) /\ no_empty_subband (patterns b0) /\ int_sides (patterns b0).
Proof.
  intros HR HK H1 HL HS E. destruct (layout_after_decompose p b data den HA HR HK H1 HL HS) as (b' & E' & L1 & L2).
  rewrite E in E'. assert (b' = b0) by congruence. subst b'.
  destruct (decompose_compose_safe' p b data den HA HR HK H1 HL HS) as (b' & E2 & Ep & _).
  rewrite E in E2. assert (b' = b0) by congruence. subst b'.
  rewrite Forall_forall in L2. split; [exact Ep|]. apply (patterns_storable p HA b0 Hpos S1 S2 S3 Ep L1 L2).
Qed.

(** stored without compression a buffer is the same *)
Lemma stored_exactly (b : buffer f32) data den cd b0 : @reachable f32 binary32 p b -> keeps_shape den ->
  1 <= signum p -> Z.of_nat (length data) = signum p -> Forall (shaped p) data ->
  decompose b data den = Ok (true, b0) ->
  exists blob, py_serialize cd (patterns b0) 0 = Ok (Some blob) /\
    forall legacy, py_parse cd legacy blob = Ok (Some (patterns b0)).
Proof.
  intros HR HK H1 HL HS E. destruct (decomposed b data den b0 HR HK H1 HL HS E) as (_ & ST & _).
  destruct (uncompressed cd (fun _ _ => Throw) (patterns b0) ST) as (blob & E3 & _).
  exists blob. rewrite level_as by lia. split; [exact E3|]. intros legacy.
  destruct (uncompressed cd legacy (patterns b0) ST) as (blob' & E4 & E5). rewrite E3 in E4. assert (blob' = blob) by congruence. subst blob'.
  specialize (E5 []). rewrite app_nil_r in E5. exact E5.
Qed.

(** whatever the codec loses, the parameters are kept *)
Lemma parsed_params (b : buffer f32) data den cd b0 level q blob b1 : @reachable f32 binary32 p b -> keeps_shape den ->
  1 <= signum p -> Z.of_nat (length data) = signum p -> Forall (shaped p) data ->
  decompose b data den = Ok (true, b0) -> 1 <= level -> codec_faithful cd (33 - Z.min 31 level) q ->
  serialize cd (patterns b0) level = Ok (Some blob) -> (forall legacy extra, parse cd legacy (blob ++ extra) = Ok (Some b1)) ->
  bpar (floats b1) = p.
Proof.
  intros HR HK H1 HL HS E Hl HF SE PA. destruct (decomposed b data den b0 HR HK H1 HL HS E) as (Ep & ST & SI & SN & _).
  destruct (proj1 (compressed cd (fun _ _ => Throw) (patterns b0) level q ST Hl SI SN HF) blob SE) as (_ & P).
  specialize (P []). rewrite (PA (fun _ _ => Throw) []) in P.
  assert (E1 : b1 = map_buffer (clean q) (patterns b0)) by (clear - P; congruence). rewrite E1. exact Ep.
Qed.

Lemma mget_at (m : mat f32) h w i j x : sized h w m -> (i < h)%nat -> (j < w)%nat -> mget m i j = Ok x ->
  at_ (values m) i j = B2R x /\ In x (elts m).
Proof.
  intros (W & R & C) Hi Hj E. rewrite (mget_wf m i j x W) in E by lia.
  assert (Ex : nth (i * cols m + j) (elts m) x = x) by (clear - E; congruence).
  assert (L : (i * cols m + j < length (elts m))%nat) by (unfold mwf in W; rewrite W, R, C; nia).
  split.
  - unfold at_, values; cbn [cols elts]. rewrite (nth_indep _ 0%R (B2R x)) by (rewrite map_length; exact L). exact (eq_trans (map_nth (@B2R 24 128) _ _ _) (f_equal (@B2R 24 128) Ex)).
  - rewrite <- Ex. apply nth_In. exact L.
Qed.

Lemma items_bounded B a c h w data : signals_of float_of_bytes a c h w data -> items_within B a c h w ->
  Forall (fun m => Forall (fun x : f32 => is_finite x = true /\ (Rabs (B2R x) <= B)%R) (elts m)) data.
Proof.
  intros (L & H) HI. apply Forall_forall. intros m Hm. apply In_nth_error in Hm as (ch & Hch).
  assert (Hc : (ch < c)%nat) by (rewrite <- L; apply nth_error_Some; congruence).
  destruct (H ch m Hch) as ((W & R & C) & G). apply Forall_forall. intros x Hx. apply In_nth_error in Hx as (k & Hk).
  assert (Lk : (k < h * w)%nat).
  { unfold mwf in W. rewrite R, C in W. rewrite <- W. apply nth_error_Some. congruence. }
  assert (w <> 0)%nat by (intros ->; lia).
  assert (Hi : (k / w < h)%nat) by (apply Nat.div_lt_upper_bound; lia).
  assert (Hj : (k mod w < w)%nat) by (apply Nat.mod_upper_bound; auto).
  destruct (G (k / w)%nat (k mod w)%nat Hi Hj) as (bs & B1 & B2). rewrite (mget_wf m _ _ x W) in B2 by lia.
  rewrite C in B2. replace (k / w * w + k mod w)%nat with k in B2 by (rewrite (Nat.div_mod k w) at 1; lia).
  rewrite (nth_error_nth _ _ _ Hk) in B2.
  assert (Ex : x = float_of_bytes bs) by (clear - B2; congruence). rewrite Ex. eapply HI; eauto.
Qed.

Theorem array_flow (b : buffer f32) a (ta tb : f32) T cast cd level q d e B c h w :
  reachable p b -> shape p = [Z.of_nat w; Z.of_nat h] -> signum p = Z.of_nat c -> (1 <= c)%nat ->
  c_contiguous a c h w -> nd_writable a = true ->
  (0 <= B <= 2 ^ 46)%R -> items_within B a c h w ->
  (0 <= T)%R -> (forall s, (s < nsteps p)%nat -> is_finite (get_threshold ta tb s) = true /\ (B2R (get_threshold ta tb s) <= T)%R) ->
  1 <= level < 256 -> codec_faithful cd (33 - Z.min 31 level) q -> codec_total cd (33 - Z.min 31 level) ->
  (0 <= d <= 1 / 2)%R -> (0 <= e <= 1)%R -> loses d e q ->
  exists b0 blob b1 out, py_decompose float_of_bytes cast b a (threshold_denoiser ta tb) = Ok (true, b0) /\
    py_serialize cd (patterns b0) level = Ok (Some blob) /\
    (forall legacy, py_parse cd legacy blob = Ok (Some b1)) /\
    py_compose (floats b1) 0 = Ok (Some out) /\ ashape out = [c; h; w] /\
    forall ch i j, (ch < c)%nat -> (i < h)%nat -> (j < w)%nat ->
      exists bs x, item a [ch; i; j] = Ok bs /\ nth_error (aelts out) ((ch * h + i) * w + j) = Some x /\
        is_finite x = true /\ (Rabs (B2R x - B2R (float_of_bytes bs)) <= sample_loss p T d e B)%R.
Proof.
  intros HR Ep Ec Hc HC Hw HB HI T0 HT Hl HF HTot Hd He Hq.
  assert (HK : keeps_shape (threshold_denoiser ta tb)) by apply threshold_keeps.
  destruct (py_cycle float_of_bytes cast p b a (threshold_denoiser ta tb) c h w HA HR HK Ep Ec Hc HC Hw) as (data & b0 & HS & E1 & E2 & _).
  assert (HL : Z.of_nat (length data) = signum p) by (destruct HS as (-> & _); auto).
  pose proof (signals_shaped float_of_bytes p a c h w data Ep HS) as HSh.
  destruct (C105_samples p b data ta tb T cd level q d e B HA HR Hpos S1 S2 S3 ltac:(lia) HL HSh HB (items_bounded B a c h w data HS HI) T0 HT
    ltac:(lia) HF HTot Hd He Hq) as (b0' & blob & b1 & out & D & SE & _ & PA & CO & LO & HE).
  rewrite E2 in D. assert (b0' = b0) by congruence. subst b0'.
  assert (Eh : drows p = h) by (unfold drows; rewrite Ep; apply Nat2Z.id).
  assert (Ew : dcols p = w) by (unfold dcols; rewrite Ep; apply Nat2Z.id).
  assert (Lc : length data = c) by apply HS.
  assert (HSo : Forall (sized h w) out).
  { apply Forall_forall. intros o Ho. apply In_nth_error in Ho as (k & Hk).
    assert (Hk' : (k < length data)%nat) by (rewrite <- LO; apply nth_error_Some; congruence).
    destruct (nth_error data k) as [m|] eqn:Em; [|apply nth_error_None in Em; lia].
    destruct (HE k m o Em Hk) as (S & _). rewrite Eh, Ew in S. exact S. }
  assert (Ep1 : bpar (floats b1) = p).
  { apply (parsed_params b data (threshold_denoiser ta tb) cd b0 level q blob b1); auto; lia. }
  destruct (py_compose2_eq (floats b1) 0 out c h w) as (arr & A1 & A2); [rewrite Ep1, Ep; reflexivity|exact CO|lia|exact Hc|exact HSo|].
  exists b0, blob, b1, arr. split; [exact E1|]. split; [rewrite level_as by lia; exact SE|].
  split; [intros legacy; specialize (PA legacy []); rewrite app_nil_r in PA; exact PA|]. split; [exact A1|].
  destruct A2 as (A2 & A3 & A4). split; [exact A2|]. intros ch i j H1 H2 H3.
  destruct (nth_error data ch) as [m|] eqn:Em; [|apply nth_error_None in Em; lia].
  destruct (nth_error out ch) as [o|] eqn:Eo; [|apply nth_error_None in Eo; lia].
  destruct HS as (_ & HS). destruct (HS ch m Em) as (Sm & HG). destruct (HG i j H2 H3) as (bs & I1 & I2).
  destruct (A4 ch o i j Eo H2 H3) as (x & X1 & X2). destruct (HE ch m o Em Eo) as (So & Fo & Hb). rewrite Eh, Ew in *.
  destruct (mget_at m h w i j _ Sm H2 H3 I2) as (V1 & _). destruct (mget_at o h w i j _ So H2 H3 X1) as (V2 & In2).
  exists bs, x. split; [exact I1|]. split; [exact X2|]. split; [unfold all_finite in Fo; rewrite Forall_forall in Fo; apply Fo; exact In2|].
  specialize (Hb i j H2 H3). rewrite V1, V2 in Hb. exact Hb.
Qed.

Theorem array_flow1 (b : buffer f32) a (ta tb : f32) T cast cd level q d e B n l :
  reachable p b -> shape p = [Z.of_nat n] -> signum p = 1 ->
  nd_shape a = [n] -> values_of float_of_bytes cast a n l ->
  (0 <= B <= 2 ^ 46)%R -> Forall (fun x : f32 => is_finite x = true /\ (Rabs (B2R x) <= B)%R) l ->
  (0 <= T)%R -> (forall s, (s < nsteps p)%nat -> is_finite (get_threshold ta tb s) = true /\ (B2R (get_threshold ta tb s) <= T)%R) ->
  1 <= level < 256 -> codec_faithful cd (33 - Z.min 31 level) q -> codec_total cd (33 - Z.min 31 level) ->
  (0 <= d <= 1 / 2)%R -> (0 <= e <= 1)%R -> loses d e q ->
  exists b0 blob b1 out, py_decompose float_of_bytes cast b a (threshold_denoiser ta tb) = Ok (true, b0) /\
    py_serialize cd (patterns b0) level = Ok (Some blob) /\
    (forall legacy, py_parse cd legacy blob = Ok (Some b1)) /\
    py_compose (floats b1) 0 = Ok (Some out) /\ ashape out = [n] /\
    Forall2 (fun x y : f32 => is_finite y = true /\ (Rabs (B2R y - B2R x) <= sample_loss p T d e B)%R) l (aelts out).
Proof.
  intros HR Ep Ec Es HV HB HI T0 HT Hl HF HTot Hd He Hq.
  assert (HK : keeps_shape (threshold_denoiser ta tb)) by apply threshold_keeps.
  destruct (py_cycle1 float_of_bytes cast p b a (threshold_denoiser ta tb) n l HA HR HK Ep Ec Es HV) as (b0 & E1 & E2 & _).
  assert (Ln : length l = n) by apply HV.
  assert (Eh : drows p = n) by (unfold drows; rewrite Ep; apply Nat2Z.id).
  assert (Ew : dcols p = 1%nat) by (unfold dcols; rewrite Ep; reflexivity).
  assert (HSh : Forall (shaped p) [mcolvec l]).
  { constructor; [|constructor]. unfold shaped, mwf, mcolvec; cbn [rows cols elts]. rewrite Eh, Ew. repeat split; auto; lia. }
  destruct (C105_samples p b [mcolvec l] ta tb T cd level q d e B HA HR Hpos S1 S2 S3 ltac:(lia) ltac:(cbn [length]; lia) HSh HB
    ltac:(constructor; [exact HI|constructor]) T0 HT ltac:(lia) HF HTot Hd He Hq) as (b0' & blob & b1 & out & D & SE & _ & PA & CO & LO & HE).
  rewrite E2 in D. assert (b0' = b0) by congruence. subst b0'.
  destruct out as [|o [|? ?]]; try discriminate LO.
  destruct (HE 0%nat (mcolvec l) o eq_refl eq_refl) as (So & Fo & Hb). rewrite Eh, Ew in *.
  assert (Ep1 : bpar (floats b1) = p).
  { apply (parsed_params b [mcolvec l] (threshold_denoiser ta tb) cd b0 level q blob b1); auto; cbn [length]; lia. }
  exists b0, blob, b1, (Arr [n] (elts o)). split; [exact E1|]. split; [rewrite level_as by lia; exact SE|].
  split; [intros legacy; specialize (PA legacy []); rewrite app_nil_r in PA; exact PA|].
  assert (W : length (elts o) = n) by (destruct So as (W & R & C); unfold mwf in W; rewrite R, C in W; lia).
  split.
  { unfold py_compose, dimension. rewrite Ep1, Ep. cbn [length Nat.eqb].
    rewrite (compose1_eq (floats b1) 0 o n ltac:(rewrite Ep1; exact Ec) CO So). cbn [bind fst snd]. rewrite W. reflexivity. }
  split; [reflexivity|]. cbn [aelts].
  assert (G : forall i x y, nth_error l i = Some x -> nth_error (elts o) i = Some y ->
    is_finite y = true /\ (Rabs (B2R y - B2R x) <= sample_loss p T d e B)%R).
  { intros i x y Hx Hy. assert (Hi : (i < n)%nat) by (rewrite <- Ln; apply nth_error_Some; congruence).
    split; [unfold all_finite in Fo; rewrite Forall_forall in Fo; apply Fo; eapply nth_error_In; exact Hy|].
    specialize (Hb i 0%nat Hi ltac:(lia)).
    destruct (mget_at o n 1 i 0 y So Hi ltac:(lia)) as (V1 & _).
    { destruct So as (Wo & R & C). rewrite (mget_wf o i 0 y Wo) by lia. rewrite C, Nat.mul_1_r, Nat.add_0_r. f_equal. apply nth_error_nth. exact Hy. }
    destruct (mget_at (mcolvec l) n 1 i 0 x) as (V2 & _); [inversion HSh as [|? ? Q _]; unfold sized; unfold shaped in Q; rewrite Eh, Ew in Q; exact Q|exact Hi|lia| |].
    { rewrite (mget_wf (mcolvec l) i 0 x); [|unfold mwf, mcolvec; cbn; lia|cbn; lia|cbn; lia]. cbn [mcolvec cols elts]. rewrite Nat.mul_1_r, Nat.add_0_r. f_equal. apply nth_error_nth. exact Hx. }
    rewrite V1, V2 in Hb. exact Hb. }
  rewrite <- W in Ln. clear - G Ln. revert G Ln. generalize (elts o). induction l as [|x l IH]; intros [|y k] G Ln; try discriminate; constructor.
  - apply (G 0%nat); reflexivity.
  - apply IH; [|exact (eq_add_S _ _ Ln)]. intros i x' y' Hx Hy. apply (G (S i)); assumption.
Qed.
End F.
