(** * T_Pyflow: property C121, numpy arrays stored and read from Python *)
Require Import List Bool Arith ZArith Reals Lra Lia.
Require Import Flocq.Core.Core Flocq.IEEE754.BinarySingleNaN.
Require Import Verif.M_Base Verif.M_Params Verif.M_Buffer Verif.M_Float Verif.M_Binary32 Verif.M_Denoise Verif.M_Mag32 Verif.M_SfEqual
  Verif.M_Archive Verif.M_Serializer Verif.M_Equal Verif.M_Python Verif.M_Python3.
Require Import Verif.S_Params Verif.S_Buffer Verif.S_Exact Verif.S_Equal Verif.S_Round Verif.S_Local Verif.S_Stable Verif.S_Serializer
  Verif.S_Lossy Verif.S_Python Verif.S_Pyflow.
Require Import Verif.P_Python Verif.P_Api2 Verif.P_Blob Verif.P_Equal Verif.P_Float Verif.P_Pyflow Verif.T_Lossy Verif.T_Serializer.
Import ListNotations.
Open Scope Z_scope.

(** ** C121: compression levels.  0 to 255 are those of Serialize (31 and more
    being the same), what is no int raises; *)
Theorem C121_level cd b level :
  (0 <= level < 256 -> py_serialize cd b level = serialize cd b level) /\
  (31 <= level < 256 -> py_serialize cd b level = py_serialize cd b 31) /\
  (level < - 2 ^ 31 \/ 2 ^ 31 <= level -> py_serialize cd b level = Ok None).
Proof.
  split; [apply level_as|]. split.
  - intros H. rewrite !level_as by lia. apply serialize_31. lia.
  - intros H. unfold py_serialize. destruct (Z.leb_spec (- 2 ^ 31) level); [|reflexivity].
    destruct (Z.ltb_spec level (2 ^ 31)); [lia|reflexivity].
Qed.
Print Assumptions C121_level.
(** other ints wrap around, so that "levels out of 0..255 raise" is false:
    -1 compresses most, 256 not at all *)
Theorem C121_wraps cd b level k :
  - 2 ^ 31 <= level < 2 ^ 31 -> - 2 ^ 31 <= level + 256 * k < 2 ^ 31 ->
  py_serialize cd b (level + 256 * k) = py_serialize cd b level.
Proof. intros H1 H2. rewrite !level_wraps by lia. rewrite Z.mul_comm, Z_mod_plus_full. reflexivity. Qed.
Print Assumptions C121_wraps.
Theorem C121_other_levels_raise_refuted : exists b blob blob', storable b /\
  py_serialize plain_codec b (-1) = Ok (Some blob) /\ py_serialize plain_codec b 31 = Ok (Some blob) /\
  py_serialize plain_codec b 256 = Ok (Some blob') /\ py_serialize plain_codec b 0 = Ok (Some blob') /\ blob <> blob'.
Proof.
  exists C23_buffer. eexists. eexists. split; [apply C23_case|].
  split; [vm_compute; reflexivity|]. split; [vm_compute; reflexivity|].
  split; [vm_compute; reflexivity|]. split; [vm_compute; reflexivity|]. discriminate.
Qed.
Print Assumptions C121_other_levels_raise_refuted.

(** ** C121: stored without compression.  A parsed copy is equal if no value
    is a NaN; *)
Theorem C121_parsed_equal cd legacy (eq : word -> word -> bool) b :
  storable b -> (forall x, holds b x -> eq x x = true) ->
  exists blob b', py_serialize cd b 0 = Ok (Some blob) /\ py_parse cd legacy blob = Ok (Some b') /\
    py_eq eq b b' = true /\ py_ne eq b b' = false.
Proof.
  intros H1 H2. destruct (uncompressed cd legacy b H1) as (blob & E1 & E2). exists blob, b.
  rewrite level_as by lia. split; [exact E1|]. specialize (E2 []). rewrite app_nil_r in E2. split; [exact E2|].
  assert (E : py_eq eq b b = true) by (apply eq_refl_iff; exact H2). split; [exact E|]. unfold py_ne. rewrite E. reflexivity.
Qed.
Print Assumptions C121_parsed_equal.
(** a blob that was cut behind its header is None for Python, not an exception *)
Theorem C121_cut cd legacy b level q blob pre suf :
  storable b -> 0 <= level < 256 -> (level <> 0 -> indexable b /\ codec_faithful cd (33 - Z.min 31 level) q) ->
  py_serialize cd b level = Ok (Some blob) -> blob = pre ++ suf -> suf <> [] ->
  (header_length (bpar b) <= length pre)%nat -> py_parse cd legacy pre = Ok None.
Proof.
  intros H1 H2 H3 H4 H5 H6. rewrite level_as in H4 by lia.
  apply (C27_truncated cd legacy b level q blob pre suf); auto; lia.
Qed.
Print Assumptions C121_cut.

(** what is composed from the parsed buffer is what is composed from the
    buffer, for every array, denoiser and scale factor *)
Theorem C121_exact p (b : buffer f32) a den cast cd c h w : accepted p -> Forall (fun n => 1 <= n) (shape p) ->
  Z.of_nat (level_rows p 0) < 2 ^ 31 -> Z.of_nat (level_cols p 0) < 2 ^ 31 ->
  Z.of_nat (level_rows p 0) * Z.of_nat (level_cols p 0) < 2 ^ 32 ->
  reachable p b -> keeps_shape den ->
  shape p = [Z.of_nat w; Z.of_nat h] -> signum p = Z.of_nat c -> (1 <= c)%nat ->
  c_contiguous a c h w -> nd_writable a = true ->
  exists b0 blob b1, py_decompose float_of_bytes cast b a den = Ok (true, b0) /\
    py_serialize cd (patterns b0) 0 = Ok (Some blob) /\ (forall legacy, py_parse cd legacy blob = Ok (Some b1)) /\
    forall sf, 0 <= sf <= steps p -> exists out, py_compose b0 sf = Ok (Some out) /\ py_compose (floats b1) sf = Ok (Some out) /\
      ashape out = [c; (h / 2 ^ Z.to_nat sf)%nat; (w / 2 ^ Z.to_nat sf)%nat].
Proof.
  intros HA Hpos S1 S2 S3 HR HK Ep Ec Hc HC Hw.
  destruct (py_cycle float_of_bytes cast p b a den c h w HA HR HK Ep Ec Hc HC Hw) as (data & b0 & HS & E1 & E2 & E3).
  destruct (stored_exactly p HA Hpos S1 S2 S3 b data den cd b0 HR HK) as (blob & B1 & B2); auto; [lia|destruct HS as (-> & _); auto|eapply signals_shaped; eauto|].
  exists b0, blob, (patterns b0). split; [exact E1|]. split; [exact B1|]. split; [exact B2|].
  intros sf Hsf. destruct (E3 sf Hsf) as (res & out & _ & O1 & O2 & _). exists out. rewrite floats_patterns. auto.
Qed.
Print Assumptions C121_exact.
Theorem C121_exact_1d p (b : buffer f32) a den cast cd n l : accepted p -> Forall (fun n => 1 <= n) (shape p) ->
  Z.of_nat (level_rows p 0) < 2 ^ 31 ->
  reachable p b -> keeps_shape den -> shape p = [Z.of_nat n] -> signum p = 1 ->
  nd_shape a = [n] -> values_of float_of_bytes cast a n l ->
  exists b0 blob b1, py_decompose float_of_bytes cast b a den = Ok (true, b0) /\
    py_serialize cd (patterns b0) 0 = Ok (Some blob) /\ (forall legacy, py_parse cd legacy blob = Ok (Some b1)) /\
    forall sf, 0 <= sf <= steps p -> exists out, py_compose b0 sf = Ok (Some out) /\ py_compose (floats b1) sf = Ok (Some out) /\
      ashape out = [(n / 2 ^ Z.to_nat sf)%nat].
Proof.
  intros HA Hpos S1 HR HK Ep Ec Es HV.
  assert (L1 : level_cols p 0 = 1%nat) by (unfold level_cols, is_1d; rewrite Ep; reflexivity).
  destruct (py_cycle1 float_of_bytes cast p b a den n l HA HR HK Ep Ec Es HV) as (b0 & E1 & E2 & E3).
  assert (HSh : Forall (shaped p) [mcolvec l]).
  { constructor; [|constructor]. destruct HV as (L & _). unfold shaped, mwf, drows, dcols, mcolvec; cbn [rows cols elts].
    rewrite Ep, Nat2Z.id. repeat split; auto; lia. }
  destruct (stored_exactly p HA Hpos S1 ltac:(rewrite L1; lia) ltac:(rewrite L1; lia) b [mcolvec l] den cd b0 HR HK ltac:(lia) ltac:(cbn [length]; lia) HSh E2)
    as (blob & B1 & B2).
  exists b0, blob, (patterns b0). split; [exact E1|]. split; [exact B1|]. split; [exact B2|].
  intros sf Hsf. destruct (E3 sf Hsf) as (m & _ & _ & O1). eexists. rewrite floats_patterns. split; [exact O1|]. split; [exact O1|reflexivity].
Qed.
Print Assumptions C121_exact_1d.

(** ** C121: with denoising and compression every call returns and every item
    of the composed array is finite and within [sample_loss] of the item of
    the array *)
Theorem C121_lossy p (b : buffer f32) a (ta tb : f32) T cast cd level q d e B c h w : accepted p ->
  Forall (fun n => 1 <= n) (shape p) ->
  Z.of_nat (level_rows p 0) < 2 ^ 31 -> Z.of_nat (level_cols p 0) < 2 ^ 31 ->
  Z.of_nat (level_rows p 0) * Z.of_nat (level_cols p 0) < 2 ^ 32 ->
  reachable p b -> shape p = [Z.of_nat w; Z.of_nat h] -> signum p = Z.of_nat c -> (1 <= c)%nat ->
  c_contiguous a c h w -> nd_writable a = true ->
  (0 <= B <= 2 ^ 46)%R -> items_within B a c h w ->
  (0 <= T)%R -> (forall s, (s < nsteps p)%nat -> is_finite (get_threshold ta tb s) = true /\ (B2R (get_threshold ta tb s) <= T)%R) ->
  1 <= level < 256 -> codec_faithful cd (33 - Z.min 31 level) q -> codec_total cd (33 - Z.min 31 level) ->
  (0 <= d <= 1 / 2)%R -> (0 <= e <= 1)%R -> loses d e q ->
  exists b0 blob b1 out, py_decompose float_of_bytes cast b a (threshold_denoiser ta tb) = Ok (true, b0) /\
    py_serialize cd (patterns b0) level = Ok (Some blob) /\
    (forall legacy, py_parse cd legacy blob = Ok (Some b1)) /\
    py_compose (floats b1) 0 = Ok (Some out) /\ ashape out = [c; h; w] /\
    forall ch i j, (ch < c)%nat -> (i < h)%nat -> (j < w)%nat ->
      exists bs x, item a [ch; i; j] = Ok bs /\ nth_error (aelts out) ((ch * h + i) * w + j) = Some x /\
        is_finite x = true /\ (Rabs (B2R x - B2R (float_of_bytes bs)) <= sample_loss p T d e B)%R.
Proof. exact (fun HA H1 H2 H3 H4 => array_flow p HA H1 H2 H3 H4 b a ta tb T cast cd level q d e B c h w). Qed.
Print Assumptions C121_lossy.
Theorem C121_lossy_1d p (b : buffer f32) a (ta tb : f32) T cast cd level q d e B n l : accepted p ->
  Forall (fun n => 1 <= n) (shape p) -> Z.of_nat (level_rows p 0) < 2 ^ 31 ->
  reachable p b -> shape p = [Z.of_nat n] -> signum p = 1 ->
  nd_shape a = [n] -> values_of float_of_bytes cast a n l ->
  (0 <= B <= 2 ^ 46)%R -> Forall (fun x : f32 => is_finite x = true /\ (Rabs (B2R x) <= B)%R) l ->
  (0 <= T)%R -> (forall s, (s < nsteps p)%nat -> is_finite (get_threshold ta tb s) = true /\ (B2R (get_threshold ta tb s) <= T)%R) ->
  1 <= level < 256 -> codec_faithful cd (33 - Z.min 31 level) q -> codec_total cd (33 - Z.min 31 level) ->
  (0 <= d <= 1 / 2)%R -> (0 <= e <= 1)%R -> loses d e q ->
  exists b0 blob b1 out, py_decompose float_of_bytes cast b a (threshold_denoiser ta tb) = Ok (true, b0) /\
    py_serialize cd (patterns b0) level = Ok (Some blob) /\
    (forall legacy, py_parse cd legacy blob = Ok (Some b1)) /\
    py_compose (floats b1) 0 = Ok (Some out) /\ ashape out = [n] /\
    Forall2 (fun x y : f32 => is_finite y = true /\ (Rabs (B2R y - B2R x) <= sample_loss p T d e B)%R) l (aelts out).
Proof.
  intros HA H1 H2 HR Ep.
  assert (L1 : level_cols p 0 = 1%nat) by (unfold level_cols, is_1d; rewrite Ep; reflexivity).
  revert HR Ep. exact (array_flow1 p HA H1 H2 ltac:(rewrite L1; lia) ltac:(rewrite L1; lia) b a ta tb T cast cd level q d e B n l).
Qed.
Print Assumptions C121_lossy_1d.

(** a picture of 2 x 2 samples 1.0f behind other data, one step of DB1; the
    codec of C96_case at level 16; thresholds 0 *)
Definition C121_p : params := Params [2; 2] 1 1 1.
Definition C121_array : ndarray :=
  ND ([7; 7] ++ concat (repeat [0; 0; 128; 63] 4)) 2 [1; 2; 2]%nat [16; 8; 4] 4 true true.
Example C121_case : accepted C121_p /\ Forall (fun n => 1 <= n) (shape C121_p) /\
  level_rows C121_p 0 = 2%nat /\ level_cols C121_p 0 = 2%nat /\ (exists b : buffer f32, reachable C121_p b) /\
  c_contiguous C121_array 1 2 2 /\ items_within 1 C121_array 1 2 2 /\
  is_finite (get_threshold (B754_zero false : f32) (B754_zero false : f32) 0) = true /\
  (B2R (get_threshold (B754_zero false : f32) (B754_zero false : f32) 0) <= 0)%R.
Proof.
  split; [unfold accepted, C121_p, params_rep, legal, u64, i32; cbn [shape signum steps wtype length]; repeat split; auto; repeat constructor; lia|].
  split; [repeat constructor; lia|]. split; [reflexivity|]. split; [reflexivity|].
  split; [eexists; apply reach_new; vm_compute; reflexivity|].
  split; [repeat split; cbn; lia|].
  split.
  - intros ch i j bs Hc Hi Hj E.
    assert (Eb : bs = [0; 0; 128; 63]).
    { destruct ch as [|?]; [|lia]. destruct i as [|[|?]]; [| |lia]; (destruct j as [|[|?]]; [| |lia]); vm_compute in E; congruence. }
    subst bs. assert (F : float_of_bytes [0; 0; 128; 63] = f32_of_int 1) by (apply B2SF_inj; vm_compute; reflexivity). rewrite F.
    destruct (val_int 1 ltac:(lia)) as [V Fi]. split; [exact Fi|]. rewrite V, Rabs_pos_eq; lra.
  - split; [reflexivity|]. cbn. lra.
Qed.
