(** * P_Serializer: Serialize and Parse *)
Require Import List Bool Arith ZArith Lia.
Require Import Verif.M_Base Verif.M_Params Verif.M_Buffer Verif.M_Denoise Verif.M_Archive Verif.M_Serializer
  Verif.S_Params Verif.S_Buffer Verif.P_Base Verif.P_Params Verif.P_Denoise Verif.P_Api Verif.P_Api2 Verif.S_Serializer Verif.P_Archive Verif.P_Csr.
Import ListNotations.
Open Scope Z_scope.

Lemma Ok_inj {X} (a b : X) : Ok a = Ok b -> a = b.
Proof. congruence. Qed.

Section Codec.
Variable cd : codec.
Variable legacy : buffer word -> list Z -> res (option (buffer word)).

(** ** One subband *)
Lemma to_csr_inv m csr : mwf m -> convert_to_csr m = Ok csr ->
  (rows m <> 0 /\ cols m <> 0)%nat /\ Z.of_nat (rows m) < 2 ^ 31 /\ Z.of_nat (cols m) < 2 ^ 31 /\
  csr = map (fun kx => (fst kx mod 2 ^ 32, snd kx)) (nz (elts m)).
Proof.
  intros W H. pose proof H as H0. unfold convert_to_csr in H.
  apply bind_ok in H as (u & H1 & H). apply check_ok in H1.
  apply bind_ok in H as (u2 & H2 & H). apply guard_ok in H2.
  destruct (Nat.eqb_spec (rows m) 0), (Nat.eqb_spec (cols m) 0); try discriminate.
  apply andb_true_iff in H2. destruct H2 as [A B]. apply Z.ltb_lt in A, B.
  split; auto. split; auto. split; auto. rewrite to_csr_eq in H0 by auto. congruence.
Qed.

Lemma compress_inv m prec a : mwf m -> Z.of_nat (rows m) * Z.of_nat (cols m) < 2 ^ 32 ->
  compress cd m prec = Ok a ->
  let es := nz (elts m) in let e := svb_delta_encode (map fst es) in
  exists vals, fpz_write cd prec (map snd es) = Ok vals /\
  a = Archived (Z.of_nat (length es)) (Z.of_nat (rows m)) (Z.of_nat (cols m)) (e ++ svb_tail cd e) vals.
Proof.
  intros W Hs H es e. unfold compress in H. apply bind_ok in H as (csr & H1 & H).
  apply bind_ok in H as (vals & H2 & H). apply to_csr_inv in H1; auto.
  destruct H1 as (_ & _ & _ & ->). rewrite nz_mod in * by (auto; lia).
  exists vals. split; auto. inversion H; subst a; clear H. f_equal.
  unfold compress_indexes. rewrite map_length.
  pose proof (nz_length (elts m)). unfold mwf in W.
  rewrite Z.mod_small by nia. rewrite Nat2Z.id. rewrite firstn_all2 by (rewrite map_length; lia).
  reflexivity.
Qed.

Lemma nz_u32 m : mwf m -> Z.of_nat (rows m) * Z.of_nat (cols m) < 2 ^ 32 ->
  Forall u32 (map fst (nz (elts m))).
Proof.
  intros W H. apply Forall_forall. intros z Hz. apply in_map_iff in Hz. destruct Hz as (e & <- & He).
  apply nz_in in He. destruct He as (k & x & -> & Hk & _). cbn [fst].
  assert (k < length (elts m))%nat by (apply nth_error_Some; congruence). unfold mwf in W. unfold u32. nia.
Qed.

Lemma decompress_compress m prec q a : mwf m -> Z.of_nat (rows m) * Z.of_nat (cols m) < 2 ^ 32 ->
  codec_faithful cd prec q -> compress cd m prec = Ok a ->
  decompress cd a = Ok (map_mat (clean q) m).
Proof.
  intros W Hs (HQ & HT) H. apply compress_inv in H; auto. destruct H as (vals & H1 & ->).
  pose proof (nz_length (elts m)) as HL. assert (W' := W). unfold mwf in W'.
  assert (Hn : Z.of_nat (length (nz (elts m))) < 2 ^ 32) by nia.
  unfold decompress. cbn [ar_nonzero ar_rows ar_cols ar_indexes ar_values].
  rewrite check_true by lia. cbn [bind]. rewrite Z.mod_small by lia. rewrite Nat2Z.id.
  rewrite <- (map_length fst (nz (elts m))) at 1. rewrite svb_round_trip by (apply nz_u32; auto). cbn [bind].
  destruct (HQ (map snd (nz (elts m))) vals) as (_ & _ & E); [rewrite map_length; auto|auto|].
  rewrite E. cbn [bind]. rewrite !map_length, Nat.sub_diag. rewrite guard_true by (apply Nat.leb_refl). cbn [bind].
  cbn [repeat]. rewrite !app_nil_r. apply from_csr_nz; auto. lia.
Qed.

(** what [Serialize] writes for a subband, [Parse] reads *)
Lemma both_subband m sf q enc : fits64 m -> (sf <> 0 -> Z.of_nat (rows m) * Z.of_nat (cols m) < 2 ^ 32) ->
  (sf <> 0 -> codec_faithful cd (33 - sf) q) ->
  put_subband cd sf m = Ok enc ->
  both throws (get_subband cd sf) enc (if sf =? 0 then m else map_mat (clean q) m).
Proof.
  intros Hf Hs HC H. unfold put_subband, get_subband in *.
  destruct (Z.eqb_spec sf 0) as [E|E].
  - apply Ok_inj in H. subst enc. apply both_mat; auto.
  - specialize (Hs E). specialize (HC E). pose proof Hf as (W & Hr & Hc & _).
    apply bind_ok in H as (a & Ha & H). apply Ok_inj in H; subst enc.
    pose proof (decompress_compress _ _ _ _ W Hs HC Ha) as HD.
    apply compress_inv in Ha; auto. destruct Ha as (vals & H1 & ->).
    cbn [ar_nonzero ar_rows ar_cols ar_indexes ar_values].
    pose proof (nz_length (elts m)) as HL. assert (W' := W). unfold mwf in W'.
    assert (Hn : Z.of_nat (length (nz (elts m))) < 2 ^ 32) by nia.
    destruct HC as (HQ & HT).
    destruct (HQ (map snd (nz (elts m))) vals) as (B1 & B2 & _); [rewrite map_length; auto|auto|].
    set (e := svb_delta_encode (map fst (nz (elts m)))) in *. destruct (HT e) as (T1 & T2).
    unfold put_u64. do 3 next.
    eapply both_bind; [apply escapes_throws | apply both_bytes |].
    { apply Forall_app. split; [apply encode_bytes | auto]. }
    { rewrite app_length. pose proof (encode_length (map fst (nz (elts m)))) as HE.
      rewrite map_length in HE. fold e in HE. lia. }
    rewrite <- (app_nil_r (put_bytes vals)).
    eapply both_bind; [apply escapes_throws | apply both_bytes; auto |].
    split; [|apply cut_nil]. intros rest. cbn [app]. rewrite HD. reflexivity.
Qed.

Lemma put_subband_bytes m sf enc : fits64 m -> (sf <> 0 -> exists q, codec_faithful cd (33 - sf) q) ->
  (sf <> 0 -> Z.of_nat (rows m) * Z.of_nat (cols m) < 2 ^ 32) ->
  put_subband cd sf m = Ok enc -> Forall is_byte enc.
Proof.
  assert (HB4 : forall a b c d, is_byte a -> is_byte b -> is_byte c -> is_byte d -> Forall is_byte [a; b; c; d])
    by (intros; do 4 (apply Forall_cons; [assumption|]); apply Forall_nil).
  intros Hf HC Hs H. unfold put_subband in H. destruct (Z.eqb_spec sf 0) as [E|E].
  - apply Ok_inj in H; subst enc. unfold put_mat, put_u64. apply Forall_app. split.
    + apply HB4; unfold is_byte; lia.
    + repeat (apply Forall_app; split); try apply le_bytes.
      apply Forall_concat. apply Forall_forall. intros x Hx. apply in_map_iff in Hx.
      destruct Hx as (w & <- & _). apply le_bytes.
  - destruct (HC E) as (q & HQ & HT). specialize (Hs E). pose proof Hf as (W & _).
    apply bind_ok in H as (a & Ha & H). apply Ok_inj in H; subst enc.
    apply compress_inv in Ha; auto. destruct Ha as (vals & H1 & ->).
    cbn [ar_nonzero ar_rows ar_cols ar_indexes ar_values].
    pose proof (nz_length (elts m)) as HL. assert (W' := W). unfold mwf in W'.
    destruct (HQ (map snd (nz (elts m))) vals) as (B1 & B2 & _); [rewrite map_length; nia|auto|].
    pose proof (encode_bytes (map fst (nz (elts m)))) as HE.
    pose proof (proj1 (HT (svb_delta_encode (map fst (nz (elts m)))))) as HT1.
    revert HE HT1. generalize (svb_delta_encode (map fst (nz (elts m)))). intros e HE HT1.
    unfold put_bytes, put_u64.
    repeat (apply Forall_app; split); try apply le_bytes; try apply HB4; try (unfold is_byte; lia); auto.
Qed.

(** ** All channels *)
Lemma both_channels {X} o (r : reader (mat word)) (put : mat word -> res (list Z)) (g : mat word -> mat word)
    (shp : list (list X)) : escapes o -> forall dec subs,
  Forall2 (fun s ch => length s = length ch) shp dec ->
  mapM (mapM put) dec = Ok subs ->
  (forall ch m e, In ch dec -> In m ch -> put m = Ok e -> both o r e (g m)) ->
  both o (get_channels shp r) (concat (concat subs)) (map (map g) dec).
Proof.
  intros Ho. induction shp as [|s shp IH]; intros dec subs HF HM HB.
  - inversion HF; subst. cbn in HM. inversion HM; subst. apply both_ret.
  - inversion HF as [|? ch ? dec' Hl HF']; subst. cbn [mapM] in HM.
    apply bind_ok in HM as (es & H1 & HM). apply bind_ok in HM as (subs' & H2 & HM).
    inversion HM; subst subs; clear HM. cbn [get_channels map concat].
    rewrite concat_app. rewrite Hl.
    assert (B1 : both o (readN (length ch) r) (concat es) (map g ch)).
    { assert (HB' : forall m e, In m ch -> put m = Ok e -> both o r e (g m))
        by (intros; eapply HB; eauto; left; auto). clear HB HF Hl H2 IH.
      revert es H1. induction ch as [|m ch IHc]; intros es H1.
      - cbn in H1. inversion H1. apply both_ret.
      - cbn [mapM] in H1. apply bind_ok in H1 as (e & He & H1). apply bind_ok in H1 as (es' & He' & H1).
        inversion H1; subst es; clear H1. cbn [length readN concat map].
        eapply both_bind; [auto| apply HB'; [left; auto|eauto]|].
        apply both_last; auto. apply IHc; auto. intros; apply HB'; auto. right; auto. }
    eapply both_bind; [auto | exact B1 |].
    apply both_last; auto. apply IH; auto. intros; eapply HB; eauto. right; auto.
Qed.

(** ** Whole blobs *)
Definition body_sf (b : buffer word) (sf : Z) : Z := if is_empty b then 0 else Z.min 31 sf.

Lemma storable_new b : storable b -> exists b0, @new_buffer word (bpar b) = Ok b0 /\ bpar b0 = bpar b /\
  Forall2 (fun s ch => length s = length ch) (bdec b0) (bdec b).
Proof.
  intros (HA & HL & HC). pose proof HA as (Hr & Hl & Ht & _).
  rewrite new_buffer_legal by (auto; lia). eexists. split; [reflexivity|]. cbn [bpar bdec]. split; auto.
  assert (Hn : Z.to_nat (signum (bpar b)) = length (bdec b)) by lia. rewrite Hn.
  assert (HC' : Forall (fun ch => length ch = decomposition_size (bpar b)) (bdec b)).
  { apply Forall_forall. intros ch Hch. rewrite dsize_bands by auto. apply HC; auto. }
  clear - HC'. induction HC' as [|ch l Hch H IH]; cbn [length repeat]; constructor; auto.
  rewrite repeat_length. auto.
Qed.

Lemma storable_with b : storable b -> new_buffer_with (bpar b) (bdec b) = Ok b.
Proof.
  intros HS. destruct (storable_new b HS) as (b0 & E & Ep & HF). destruct HS as (HA & HL & HC).
  unfold new_buffer_with. rewrite E. cbn [bind]. rewrite Ep, <- HL, Z.eqb_refl. cbn [negb].
  replace (forallb _ _) with true.
  - cbn [negb]. destruct b; reflexivity.
  - symmetry. clear - HF. induction HF as [|s ch l l' Hs H IH]; [reflexivity|].
    cbn [combine forallb fst snd]. rewrite Hs, Nat.eqb_refl. apply IH.
Qed.

Lemma serialize_inv b sf blob : storable b -> serialize cd b sf = Ok (Some blob) ->
  exists subs, mapM (mapM (put_subband cd (body_sf b sf))) (bdec b) = Ok subs /\
  blob = [3] ++ put_params (bpar b) ++ [body_sf b sf] ++ concat (concat subs).
Proof.
  intros HS H. unfold serialize in H. rewrite storable_with in H by auto. cbn [bind] in H.
  unfold serializer_serialize in H. fold (body_sf b sf) in H.
  destruct (mapM (mapM (put_subband cd (body_sf b sf))) (bdec b)) as [subs| |] eqn:E;
    cbn [bind catch] in H; try discriminate.
  exists subs. split; [reflexivity|]. inversion H. reflexivity.
Qed.

Lemma body_sf_range b sf : 0 <= sf -> 0 <= body_sf b sf <= 31.
Proof. unfold body_sf. destruct (is_empty b); lia. Qed.

Definition result (b : buffer word) (sf : Z) (q : word -> word) : buffer word :=
  if body_sf b sf =? 0 then b else map_buffer (clean q) b.

Lemma map_mat_ext m : (fun x : mat word => x) m = m. Proof. reflexivity. Qed.

Lemma body_both b sf q subs b0 : storable b -> 0 <= sf -> (body_sf b sf <> 0 -> indexable b) ->
  (body_sf b sf <> 0 -> codec_faithful cd (33 - body_sf b sf) q) ->
  Forall2 (fun s ch => length s = length ch) b0 (bdec b) ->
  mapM (mapM (put_subband cd (body_sf b sf))) (bdec b) = Ok subs ->
  both throws (@get_channels (mat word) b0 (get_subband cd (body_sf b sf))) (concat (concat subs)) (bdec (result b sf q)).
Proof.
  intros HS Hsf HI HC HF HM. unfold result. set (s := body_sf b sf) in *.
  assert (HB := both_channels throws (get_subband cd s) (put_subband cd s)
    (fun m => if s =? 0 then m else map_mat (clean q) m) b0 escapes_throws (bdec b) subs HF HM).
  replace (bdec (if s =? 0 then b else map_buffer (clean q) b))
    with (map (map (fun m => if s =? 0 then m else map_mat (clean q) m)) (bdec b)).
  - apply HB. intros ch m e Hch Hm He. destruct HS as (_ & _ & HC'). destruct (HC' ch Hch) as [_ HFt].
    rewrite Forall_forall in HFt. eapply both_subband; eauto. intros Hs0. eapply HI; eauto.
  - destruct (s =? 0); [|reflexivity]. rewrite (map_ext _ (fun x => x)).
    + apply map_id.
    + intros l. apply map_id.
Qed.

Lemma both_header p sf : accepted p -> 0 <= sf < 256 ->
  both undef (read* _ := get_raw 1 in read* p := get_params in read* sf := get_raw 1 in rret (p, sf))
    ([3] ++ put_params p ++ [sf]) (p, sf).
Proof.
  intros (Hr & Hl & _) Hs.
  eapply both_bind; [apply escapes_undef | apply both_byte; lia |].
  eapply both_bind; [apply escapes_undef | apply both_params; auto |].
  { unfold legal in Hl. unfold dimension. lia. }
  apply (both_last undef (get_raw 1) (fun s => (p, s))); [apply escapes_undef | apply both_byte; lia].
Qed.

Theorem parse_serialize b sf q blob extra : storable b -> 0 <= sf ->
  (body_sf b sf <> 0 -> indexable b) ->
  (body_sf b sf <> 0 -> codec_faithful cd (33 - body_sf b sf) q) ->
  serialize cd b sf = Ok (Some blob) ->
  parse cd legacy (blob ++ extra) = Ok (Some (result b sf q)).
Proof.
  intros HS Hsf HI HC H. apply serialize_inv in H; auto. destruct H as (subs & HM & ->).
  pose proof (body_sf_range b sf Hsf) as Hr.
  destruct (storable_new b HS) as (b0 & E & Ep & HF).
  pose proof (body_both b sf q subs (bdec b0) HS Hsf HI HC HF HM) as [HB _].
  pose proof HS as (HA & _).
  destruct (both_header (bpar b) (body_sf b sf) HA ltac:(lia)) as [HH _].
  unfold parse. cbn [app first_char is_blank]. cbn.
  change (parse_v3 cd ((3 :: put_params (bpar b) ++ body_sf b sf :: concat (concat subs)) ++ extra)
          = Ok (Some (result b sf q))).
  unfold parse_v3.
  replace ((3 :: put_params (bpar b) ++ body_sf b sf :: concat (concat subs)) ++ extra)
    with (([3] ++ put_params (bpar b) ++ [body_sf b sf]) ++ (concat (concat subs) ++ extra))
    by (cbn [app]; rewrite <- !app_assoc; reflexivity).
  rewrite HH. cbn [bind]. rewrite E. cbn [bind]. rewrite HB. cbn [bind catch fst].
  rewrite Ep. unfold result. destruct (_ =? 0); destruct b; reflexivity.
Qed.

Lemma put_list_length l : length (concat (map put_u64 l)) = (8 * length l)%nat.
Proof. induction l as [|x l IH]; [reflexivity|]. cbn [map concat]. rewrite app_length, IH. unfold put_u64. rewrite le_length. cbn [length]. lia. Qed.
Lemma put_params_length p : length (put_params p) = (28 + 8 * length (shape p))%nat.
Proof.
  unfold put_params, put_shape. rewrite !app_length, put_list_length.
  unfold put_u64, put_i32. rewrite !le_length. lia.
Qed.

Theorem parse_truncated b sf q blob pre suf : storable b -> 0 <= sf ->
  (body_sf b sf <> 0 -> indexable b) ->
  (body_sf b sf <> 0 -> codec_faithful cd (33 - body_sf b sf) q) ->
  serialize cd b sf = Ok (Some blob) -> blob = pre ++ suf -> suf <> [] ->
  ((header_length (bpar b) <= length pre)%nat -> parse cd legacy pre = Ok None) /\
  ((length pre < header_length (bpar b))%nat -> parse cd legacy pre = UB).
Proof.
  intros HS Hsf HI HC H Hb Hne. apply serialize_inv in H; auto. destruct H as (subs & HM & Hblob).
  pose proof (body_sf_range b sf Hsf) as Hr.
  destruct (storable_new b HS) as (b0 & E & Ep & HF).
  pose proof (body_both b sf q subs (bdec b0) HS Hsf HI HC HF HM) as [_ HB].
  pose proof HS as (HA & _).
  destruct (both_header (bpar b) (body_sf b sf) HA ltac:(lia)) as [HH HH2].
  set (hd := [3] ++ put_params (bpar b) ++ [body_sf b sf]) in *.
  assert (Hlen : length hd = header_length (bpar b)).
  { unfold hd, header_length. rewrite !app_length, put_params_length. cbn [length]. lia. }
  assert (Eb : pre ++ suf = hd ++ concat (concat subs)).
  { rewrite <- Hb, Hblob. unfold hd. rewrite <- !app_assoc. reflexivity. }
  assert (Hp : parse cd legacy pre = match pre with [] => UB | _ => parse_v3 cd pre end).
  { unfold parse. destruct pre as [|c pre]; [reflexivity|].
    assert (c = 3) by (unfold hd in Eb; cbn in Eb; congruence). subst c. reflexivity. }
  rewrite Hp. split; intros HL.
  - destruct (app_cut _ _ _ _ Eb) as [(l & E1 & Hl)|(l & E1 & E2)].
    { assert (length hd = length pre + length l)%nat by (rewrite E1; apply app_length).
      destruct l as [|z l]; [congruence|]. cbn [length] in H. lia. }
    destruct pre as [|c pre]; [unfold header_length in HL; cbn in HL; lia|].
    unfold parse_v3. rewrite E1, HH. cbn [bind]. rewrite E. cbn [bind].
    rewrite (HB _ _ E2 Hne). reflexivity.
  - destruct pre as [|c pre]; [reflexivity|].
    destruct (app_cut _ _ _ _ Eb) as [(l & E1 & Hl)|(l & E1 & E2)].
    2:{ assert (length (c :: pre) = length hd + length l)%nat by (rewrite E1; apply app_length). lia. }
    unfold parse_v3. rewrite (HH2 _ _ E1 Hl). reflexivity.
Qed.

(** ** When Serialize succeeds *)
Lemma compress_ok m prec : mwf m -> codec_total cd prec -> (rows m <> 0 /\ cols m <> 0)%nat ->
  Z.of_nat (rows m) < 2 ^ 31 -> Z.of_nat (cols m) < 2 ^ 31 -> exists a, compress cd m prec = Ok a.
Proof.
  intros W HT Hn H1 H2. unfold compress. rewrite to_csr_eq by auto. cbn [bind].
  destruct (HT (map snd (map (fun kx => (fst kx mod 2 ^ 32, snd kx)) (nz (elts m))))) as (v & ->).
  cbn [bind]. eauto.
Qed.
Lemma compress_empty m prec : (rows m = 0 \/ cols m = 0)%nat -> compress cd m prec = Throw.
Proof.
  intros H. unfold compress, convert_to_csr.
  replace (negb _) with false; [reflexivity|].
  destruct H as [-> | ->]; cbn; [reflexivity|]. rewrite orb_true_r. reflexivity.
Qed.

Lemma mapM_throw {X Y} (f : X -> res Y) l x : In x l -> f x = Throw ->
  (forall y, In y l -> f y <> UB) -> mapM f l = Throw.
Proof.
  intros Hin Hx Hn. induction l as [|y l IH]; [contradiction|]. cbn [mapM].
  destruct (f y) eqn:E; cbn [bind]; auto.
  - destruct Hin as [->|Hin]; [congruence|]. rewrite IH; auto. intros; apply Hn; right; auto.
  - exfalso. apply (Hn y); [left; auto|auto].
Qed.
Lemma mapM_total {X Y} (f : X -> res Y) l : (forall x, In x l -> exists y, f x = Ok y) -> exists r, mapM f l = Ok r.
Proof.
  induction l as [|x l IH]; intros H; cbn [mapM]; [eauto|].
  destruct (H x (or_introl eq_refl)) as (y & ->). destruct IH as (r & ->); [intros; apply H; right; auto|].
  cbn [bind]. eauto.
Qed.

Theorem serialize_0 b : storable b -> exists blob, serialize cd b 0 = Ok (Some blob).
Proof.
  intros HS. unfold serialize. rewrite storable_with by auto. cbn [bind]. unfold serializer_serialize.
  replace (if is_empty b then 0 else Z.min 31 0) with 0 by (destruct (is_empty b); reflexivity).
  destruct (mapM_total (mapM (put_subband cd 0)) (bdec b)) as (r & ->).
  - intros ch _. apply mapM_total. intros m _. eexists. reflexivity.
  - cbn [bind catch]. eauto.
Qed.

Theorem serialize_empty b sf : storable b -> is_empty b = true -> serialize cd b sf = serialize cd b 0.
Proof.
  intros HS HE. unfold serialize. rewrite storable_with by auto. cbn [bind]. unfold serializer_serialize.
  rewrite HE. reflexivity.
Qed.

Theorem serialize_full b sf : storable b -> 1 <= sf -> int_sides b -> codec_total cd (33 - Z.min 31 sf) ->
  no_empty_subband b -> exists blob, serialize cd b sf = Ok (Some blob).
Proof.
  intros HS Hsf HI HT HN. unfold serialize. rewrite storable_with by auto. cbn [bind]. unfold serializer_serialize.
  destruct (mapM_total (mapM (put_subband cd (if is_empty b then 0 else Z.min 31 sf))) (bdec b)) as (r & ->).
  - intros ch Hch. apply mapM_total. intros m Hm. unfold put_subband.
    destruct (is_empty b); [eexists; reflexivity|]. destruct (Z.eqb_spec (Z.min 31 sf) 0); [lia|].
    destruct (compress_ok m (33 - Z.min 31 sf)) as (a & ->); auto; try (eapply HI; eauto).
    + destruct HS as (_ & _ & HC). destruct (HC ch Hch) as [_ HF]. rewrite Forall_forall in HF. apply (HF m Hm).
    + eapply HN; eauto.
    + cbn [bind]. eauto.
  - cbn [bind catch]. eauto.
Qed.

Theorem serialize_mixed b sf ch m : storable b -> 1 <= sf -> int_sides b -> codec_total cd (33 - Z.min 31 sf) ->
  is_empty b = false -> In ch (bdec b) -> In m ch -> (rows m = 0 \/ cols m = 0)%nat ->
  serialize cd b sf = Ok None.
Proof.
  intros HS Hsf HI HT HE Hch Hm H0. unfold serialize. rewrite storable_with by auto. cbn [bind].
  unfold serializer_serialize. rewrite HE.
  assert (HU : forall ch m, In ch (bdec b) -> In m ch -> put_subband cd (Z.min 31 sf) m <> UB).
  { intros ch' m' Hch' Hm'. unfold put_subband. destruct (Z.eqb_spec (Z.min 31 sf) 0); [lia|].
    assert (D : (rows m' = 0 \/ cols m' = 0)%nat \/ (rows m' <> 0 /\ cols m' <> 0)%nat) by lia.
    destruct D as [D|D].
    - rewrite compress_empty by auto. discriminate.
    - destruct (compress_ok m' (33 - Z.min 31 sf)) as (a & ->); auto; try (eapply HI; eauto).
      + destruct HS as (_ & _ & HC). destruct (HC ch' Hch') as [_ HF]. rewrite Forall_forall in HF. apply (HF m' Hm').
      + discriminate. }
  assert (HU2 : forall l, (forall m, In m l -> put_subband cd (Z.min 31 sf) m <> UB) ->
                mapM (put_subband cd (Z.min 31 sf)) l <> UB).
  { induction l as [|x l IH]; intros Hl; [discriminate|]. cbn [mapM].
    destruct (put_subband cd (Z.min 31 sf) x) eqn:Ex; cbn [bind]; try discriminate.
    - specialize (IH ltac:(intros; apply Hl; right; auto)). destruct (mapM _ l); cbn [bind]; congruence.
    - exfalso. apply (Hl x); [left; auto|auto]. }
  rewrite (mapM_throw _ _ ch Hch); [reflexivity| |].
  - apply (mapM_throw _ _ m Hm).
    + unfold put_subband. destruct (Z.eqb_spec (Z.min 31 sf) 0); [lia|]. rewrite compress_empty by auto. reflexivity.
    + intros; eapply HU; eauto.
  - intros ch' Hch'. apply HU2. intros; eapply HU; eauto.
Qed.

End Codec.
