(** * P_Python2: proofs about M_Python2 *)
Require Import List Bool Arith ZArith Reals Lra Lia.
Require Import Verif.M_Base Verif.M_Params Verif.M_Buffer Verif.M_Real Verif.M_Metrics Verif.M_View Verif.M_Archive
  Verif.M_Equal Verif.M_Serializer Verif.M_Image Verif.M_Python Verif.M_Python2
  Verif.S_Params Verif.S_Buffer Verif.S_Exact Verif.S_Metrics Verif.S_Serializer Verif.S_Image Verif.S_Python
  Verif.P_Base Verif.P_Serializer Verif.P_Api2 Verif.P_Exact Verif.P_Metrics Verif.P_Image Verif.P_Python.
Import ListNotations.
Open Scope nat_scope.

Lemma vecs_ok {T} (data : list (list T)) k : data <> [] -> Forall (fun d => length d = k) data ->
  exists out, vecs_to_array data = Ok out /\ ashape out = [length data; k] /\ length (aelts out) = length data * k /\
    forall ch i d x, nth_error data ch = Some d -> nth_error d i = Some x -> nth_error (aelts out) (ch * k + i) = Some x.
Proof.
  intros Hne HF. unfold vecs_to_array. destruct data as [|d0 rest] eqn:Ed; [congruence|]. cbn [rd nth_error bind].
  rewrite <- Ed in *. assert (L0 : length d0 = k) by (rewrite Ed in HF; inversion HF; auto). rewrite L0.
  rewrite Forall_forall in HF.
  assert (G : forall q, q < length data * k -> exists d x, nth_error data (q / k) = Some d /\ nth_error d (q mod k) = Some x).
  { intros q Hq. assert (k <> 0) by nia.
    destruct (nth_error data (q / k)) as [d|] eqn:E1.
    2:{ exfalso. apply nth_error_None in E1. pose proof (Nat.div_lt_upper_bound q k (length data) H ltac:(nia)). lia. }
    pose proof (HF d (nth_error_In _ _ E1)) as Ld. pose proof (Nat.mod_upper_bound q k H).
    destruct (nth_error d (q mod k)) as [x|] eqn:E2; [eauto|]. apply nth_error_None in E2. lia. }
  destruct (mapM_total (fun q => let* d := rd data (q / k) in rd d (q mod k)) (seq 0 (length data * k))) as (l & Et).
  { intros q Hq. apply in_seq in Hq. destruct (G q ltac:(lia)) as (d & x & E1 & E2). exists x. unfold rd. rewrite E1. cbn [bind]. rewrite E2. reflexivity. }
  fold (tabulateM (length data * k) (fun q => let* d := rd data (q / k) in rd d (q mod k))) in Et. rewrite Et.
  eexists. split; [reflexivity|]. apply tabulateM_inv in Et as (Ll & Et). cbn [ashape aelts]. split; [auto|]. split; [auto|].
  intros ch i d x E1 E2. pose proof (HF d (nth_error_In _ _ E1)) as Ld.
  assert (Hi : i < k) by (rewrite <- Ld; apply nth_error_Some; congruence).
  assert (Hc : ch < length data) by (apply nth_error_Some; congruence).
  destruct (nth_error l (ch * k + i)) as [y|] eqn:Ey.
  - apply Et in Ey. replace ((ch * k + i) / k) with ch in Ey by (rewrite Nat.div_add_l, (Nat.div_small i k); lia).
    replace ((ch * k + i) mod k) with i in Ey by (rewrite Nat.add_comm, Nat.mod_add, Nat.mod_small; lia).
    unfold rd in Ey. rewrite E1 in Ey. cbn [bind] in Ey. rewrite E2 in Ey. congruence.
  - apply nth_error_None in Ey. nia.
Qed.

Lemma energy_array (b : buffer R) k : length (shape (bpar b)) <> 1 -> ~ no_elements b ->
  Forall (fun ch => length ch = k) (bdec b) ->
  exists out, py_energy b = Ok out /\ ashape out = [length (bdec b); k] /\ length (aelts out) = length (bdec b) * k /\
    forall ch i d m, nth_error (bdec b) ch = Some d -> nth_error d i = Some m ->
      nth_error (aelts out) (ch * k + i) = Some (energy m).
Proof.
  intros H1 HN HF. destruct (energy_distribution_ok b) as (_ & HE & _). destruct (HE HN) as (E & Hne).
  destruct (vecs_ok (map (map energy) (bdec b)) k) as (out & Eo & Es & El & G).
  { destruct (bdec b); [congruence|discriminate]. }
  { apply Forall_forall. intros d Hd. apply in_map_iff in Hd as (ch & <- & Hch). rewrite map_length.
    rewrite Forall_forall in HF. auto. }
  exists out. unfold py_energy, dimension. destruct (Nat.eqb_spec (length (shape (bpar b))) 1) as [X|_]; [congruence|].
  rewrite E, Eo. rewrite map_length in Es, El. split; [auto|]. split; [auto|]. split; [auto|].
  intros ch i d m Ec Ei. apply (G ch i (map energy d)); apply map_nth_error; auto.
Qed.

Lemma energy_array_1d (b : buffer R) n d rest : shape (bpar b) = [n] -> ~ no_elements b -> bdec b = d :: rest ->
  py_energy b = Ok (Arr [length d] (map energy d)).
Proof.
  intros H1 HN Ed. destruct (energy_distribution_ok b) as (_ & HE & _). destruct (HE HN) as (E & _).
  unfold py_energy, dimension. rewrite H1. cbn [length Nat.eqb]. rewrite E, Ed. cbn [map rd nth_error bind].
  rewrite map_length. reflexivity.
Qed.

Lemma energy_none (b : buffer R) : no_elements b -> py_energy b = UB.
Proof.
  intros HN. destruct (energy_distribution_ok b) as (HE & _ & _). unfold py_energy. rewrite (HE HN).
  destruct (_ =? _); reflexivity.
Qed.

(** ** decode *)
Section Decode.
Context {T : Type}.
Variables (lib : jpeg) (to_px : T -> Z) (of_px : Z -> T) (quality : Z).

Lemma decode_array n blob img : 1 <= n -> blob <> [] -> jload lib blob = Some img -> cimg_wf img -> n <= cspectrum img ->
  exists out, py_decode (fun data => decode_channels lib of_px n data [] 0) blob = Ok (Some out) /\
    ashape out = [n; cheight img; cwidth img] /\ length (aelts out) = n * cheight img * cwidth img /\
    forall k y x, k < n -> y < cheight img -> x < cwidth img ->
      exists v, pixel img x y k = Some v /\ nth_error (aelts out) ((k * cheight img + y) * cwidth img + x) = Some (of_px v).
Proof.
  intros Hn Hb Hl Hw Hs. destruct (decode_ok lib of_px n blob [] 0 img Hb Hl Hw Hs) as (im & E & HD).
  destruct HD as (Len & _ & _ & D). cbn [length] in Len. rewrite Nat.add_0_l in Len.
  assert (Len' : length im = n) by lia.
  destruct (signals_to_array_ok im n (cheight img) (cwidth img) Len' Hn) as (out & Eo & Sh & Lo & G).
  { apply Forall_forall. intros m Hm. apply In_nth_error in Hm as (k & Hk).
    assert (k < n) by (rewrite <- Len'; apply nth_error_Some; congruence).
    destruct (D k H) as (m' & N' & W' & R' & C' & _). rewrite Nat.add_0_l in N'. rewrite Hk in N'. injection N' as <-.
    split; auto. }
  exists out. unfold py_decode. rewrite E. cbn [bind fst snd]. rewrite Eo. cbn [bind]. split; [reflexivity|]. split; [auto|]. split; [auto|].
  intros k y x Hk Hy Hx. destruct (D k Hk) as (m & N & _ & _ & _ & P). rewrite Nat.add_0_l in N.
  destruct (P x y Hx Hy) as (v & Ev & Eg). exists v. split; [auto|].
  destruct (G k m y x N Hy Hx) as (x0 & Eg' & En). rewrite Eg in Eg'. injection Eg' as <-. exact En.
Qed.

Lemma encode_decode n (enc : list (mat T) -> nat -> res (option (list Z))) load a c h w s :
  (forall image start, Forall mwf image -> encodable n image start -> exists img size,
     shows to_px n image start img /\ enc image start = let* bytes := jsave lib img size quality in Ok (Some bytes)) ->
  1 <= n -> lossless lib quality -> c_contiguous a c h w -> nd_writable a = true ->
  1 <= h -> 1 <= w -> s + n <= c ->
  exists bytes out, py_encode load (fun data => enc data s) a = Ok (Some bytes) /\
    py_decode (fun data => decode_channels lib of_px n data [] 0) bytes = Ok (Some out) /\
    ashape out = [n; h; w] /\
    forall k i j, k < n -> i < h -> j < w -> exists bs, item a [s + k; i; j] = Ok bs /\
      nth_error (aelts out) ((k * h + i) * w + j) = Some (of_px (to_px (load bs))).
Proof.
  intros HEn Hn HL HC Hw Hh Hww Hs. destruct (signals_contiguous load a c h w HC) as (data & Ed & Ld & HS).
  assert (W : Forall mwf data).
  { apply Forall_forall. intros m Hm. apply In_nth_error in Hm as (k & Hk). destruct (HS k m Hk) as ((X & _) & _). exact X. }
  assert (HEC : encodable n data s).
  { exists h, w. split; [lia|]. split; [lia|]. intros k Hk. destruct (nth_error data (s + k)) as [m|] eqn:Em.
    - exists m. destruct (HS _ m Em) as ((_ & R' & C') & _). auto.
    - apply nth_error_None in Em. lia. }
  destruct (HEn data s W HEC) as (img & size & Hsh & Ee).
  destruct Hsh as (Sp & Wi & D). destruct (HL img size Wi) as (bytes & E1 & E2 & E3).
  destruct (D 0 ltac:(lia)) as (m0 & N0 & R0 & C0 & _). destruct (HS _ m0 N0) as ((_ & R0' & C0') & _).
  assert (Hhh : cheight img = h) by congruence. assert (Hcw : cwidth img = w) by congruence.
  destruct (decode_array n bytes img Hn E2 E3 Wi ltac:(lia)) as (out & Eo & Sh & _ & P). rewrite Hhh, Hcw in *.
  exists bytes, out. split.
  - unfold py_encode. destruct HC as (_ & _ & Es & _). rewrite Es. cbn [rd nth_error bind]. rewrite Hw. cbn [check bind].
    rewrite Ed. cbn [bind]. rewrite Ee, E1. reflexivity.
  - split; [auto|]. split; [auto|]. intros k i j Hk Hi Hj. destruct (P k i j Hk Hi Hj) as (v & Pv & Nv).
    destruct (D k Hk) as (m & N & _ & _ & Q). destruct (Q j i Hj Hi) as (x & Gx & Px). rewrite Pv in Px. injection Px as ->.
    destruct (HS _ m N) as (_ & I). destruct (I i j Hi Hj) as (bs & Ib & Gb). exists bs. split; [auto|].
    rewrite Gb in Gx. injection Gx as <-. exact Nv.
Qed.
End Decode.

(** ** image *)
Section Img.
Context {T : Type} {A : Arith T}.
Lemma import_raises (b b' : buffer T) data den cd start r :
  py_import_string b data den cd start = Ok (r, b') ->
  (r = true <-> import_string b data den cd start = Ok (kOk, b')) /\ (r = false -> b' = b).
Proof.
  unfold py_import_string. intros H. apply bind_ok in H as ((st & b1) & E & H). cbn [fst snd] in H.
  injection H as <- ->. rewrite E. split.
  - split; [destruct st; cbn; intros X; try discriminate X; reflexivity|intros X; injection X as ->; reflexivity].
  - intros Hs. apply import_status in E as [(_ & _ & ->)|(im & q & _ & _ & [(-> & ->)|(_ & _ & ->)])]; auto. discriminate.
Qed.
Lemma import_file_raises e f p (b b' : buffer T) den cd start r :
  py_import_file e f p b den cd start = Ok (r, b') ->
  (r = true -> can_open e = true /\ exists data, f p = Some data /\ import_string b data den cd start = Ok (kOk, b')) /\
  (r = false -> b' = b).
Proof.
  unfold py_import_file, import_file, fread. intros H.
  destruct (can_open e) eqn:Ec; [destruct (f p) as [data|] eqn:Ef|].
  - change (py_import_string b data den cd start = Ok (r, b')) in H. apply import_raises in H as (H1 & H2).
    split; [|auto]. intros Hr. split; [auto|]. exists data. split; [auto|]. apply H1. auto.
  - cbn in H. injection H as <- <-. split; [discriminate|auto].
  - cbn in H. injection H as <- <-. split; [discriminate|auto].
Qed.
Lemma export_returns (b : buffer T) cd start bytes :
  py_export_string b cd start = Ok (Some bytes) <->
  exists image, view_compose (View (to_int32 start) (to_int32 (icchannels cd)) false) b 0 = Ok (true, Some image) /\
    icencode cd image = Ok (Some bytes).
Proof.
  split.
  - unfold py_export_string. intros H. apply bind_ok in H as ((st & d) & E & H). cbn [fst snd] in H.
    apply export_status in E as [(-> & _)|(image & E1 & [(-> & _)|(-> & bs & -> & E2)])]; cbn in H; try discriminate.
    injection H as ->. eauto.
  - intros (image & E1 & E2). unfold py_export_string, export_string. rewrite E1. cbn [bind]. rewrite E2. reflexivity.
Qed.
End Img.

(** ** distance of images *)
Open Scope R_scope.
Lemma sum_sq_self l : sum_sq_diff l l = 0.
Proof. unfold sum_sq_diff. induction l as [|x l IH]; simpl; auto. rewrite IH. ring. Qed.
Lemma sum_sq_unit l : forall l', Forall (fun x => 0 <= x <= 1) l -> Forall (fun x => 0 <= x <= 1) l' ->
  sum_sq_diff l l' <= INR (length l).
Proof.
  unfold sum_sq_diff. induction l as [|x l IH]; intros [|y l'] H H'; cbn [combine fold_right fst snd].
  - simpl. lra.
  - simpl. lra.
  - apply pos_INR.
  - inversion H as [|? ? (Hx & Hx') Hl]; inversion H' as [|? ? (Hy & Hy') Hl']; subst. specialize (IH l' Hl Hl').
    change (length (x :: l)) with (S (length l)). rewrite S_INR.
    pose proof (Rmult_le_pos (1 - (x - y)) (1 + (x - y)) ltac:(lra) ltac:(lra)). lra.
Qed.
Lemma sum_sq_nonneg l : forall l', 0 <= sum_sq_diff l l'.
Proof.
  unfold sum_sq_diff. induction l as [|x l IH]; intros [|y l']; cbn [combine fold_right fst snd]; try lra. specialize (IH l').
  pose proof (Rle_0_sqr (x - y)) as Hs. unfold Rsqr in Hs. lra.
Qed.

Lemma samples_length p (data : list (mat R)) : small_shape p -> accepted p -> Z.of_nat (length data) = signum p -> Forall (shaped p) data ->
  INR (length (concat (map (@elts R) data))) = IZR (samples p) /\ 0 < IZR (samples p).
Proof.
  intros (H1 & _ & H3 & _) HA HL HF.
  assert (C1 : (1 <= channel_samples p)%Z).
  { unfold channel_samples. clear -H1. induction H1; cbn [fold_right]; nia. }
  assert (E : forall d, Forall (shaped p) d -> Z.of_nat (length (concat (map (@elts R) d))) = (Z.of_nat (length d) * channel_samples p)%Z).
  { clear HL HF data. induction d as [|m d IH]; intros HF; [reflexivity|]. cbn [map concat]. rewrite app_length, Nat2Z.inj_add.
    inversion HF as [|? ? (W & R' & C') HF']; subst. rewrite (IH HF'). unfold mwf in W. rewrite W, R', C'.
    assert (Hc : Z.of_nat (drows p * dcols p) = channel_samples p).
    { destruct HA as (_ & (HD & _) & _). unfold drows, dcols, channel_samples.
      destruct (shape p) as [|n [|m' [|? ?]]] eqn:Es; cbn [length] in HD; try lia; inversion H1; subst.
      - cbn [fold_right]. cbn. lia.
      - inversion H4; subst. cbn [fold_right nth]. lia. }
    rewrite Hc. cbn [length]. lia. }
  specialize (E data HF). rewrite HL in E. fold (samples p) in E.
  rewrite INR_IZR_INZ, E. split; [reflexivity|]. apply IZR_lt. unfold samples. nia.
Qed.
