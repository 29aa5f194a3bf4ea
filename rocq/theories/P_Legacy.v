(** * P_Legacy: compressed version 2 blobs are read *)
Require Import List ZArith Bool Lia ZifyBool Reals Lra.
Require Import Flocq.Core.Core Flocq.IEEE754.BinarySingleNaN.
Import ListNotations.
From Verif Require Import M_Base P_Base M_Params S_Params M_Buffer S_Buffer M_Float M_Sf M_SfCodec S_SfCodec
  P_SfFloat P_SfValue P_SfCases M_Archive M_Serializer S_Serializer P_Archive P_Impl P_Api P_Csr P_Serializer P_Blob
  M_Legacy S_Legacy.
Open Scope Z_scope.

(** ** The reserved memory *)
Lemma ex_half : ex one_and_half 3 (-1).
Proof.
  unfold one_and_half. pose proof (binary_normalize_correct 53 1024 _ _ mode_NE 3 (-1) false) as H. cbv zeta in H.
  change (F2R (Float radix2 3 (-1))) with (IZR 3 * bpow radix2 (-1))%R in H.
  rewrite r64_exact in H by lia. rewrite Rlt_bool_true in H by (apply small_exact; lia).
  destruct H as (H1 & H2 & _). split; auto.
Qed.
Lemma ex_trunc x a k : ex x a (- k) -> 0 <= a -> 0 <= k -> Btrunc x = a / 2 ^ k.
Proof.
  intros (E & F) Ha Hk. apply eq_IZR. rewrite (Btrunc_correct 53 1024 _), E, round_FIX_IZR.
  assert (P : (0 < IZR (2 ^ k))%R) by (apply IZR_lt; apply Z.pow_pos_nonneg; lia).
  assert (B : bpow radix2 (- k) = (/ IZR (2 ^ k))%R).
  { rewrite bpow_opp. f_equal. rewrite <- IZR_Zpower by lia. reflexivity. }
  rewrite B. f_equal. rewrite Ztrunc_floor.
  - change (IZR a * / IZR (2 ^ k))%R with (IZR a / IZR (2 ^ k))%R. apply Zfloor_div. lia.
  - apply Rmult_le_pos; [apply IZR_le; lia|]. apply Rlt_le, Rinv_0_lt_compat. auto.
Qed.

Lemma memory_val n k : 0 <= n < 2 ^ 49 -> 0 <= k <= 200 ->
  let v := f64_mul (f64_div (f64_of_int (wrap64 (n * 4))) (pow2d k)) one_and_half in
  is_finite v = true /\ Btrunc v = 6 * n / 2 ^ k.
Proof.
  intros Hn Hk v. assert (W : wrap64 (n * 4) = n * 4) by (unfold wrap64; apply Z.mod_small; lia).
  assert (E : ex v (n * 4 * 3) (0 - k + -1)).
  { unfold v. rewrite W. apply ex_mul; try apply ex_half; try lia. apply ex_div; try lia.
    - apply ex_int. lia.
    - apply ex_pow. lia. }
  split; [apply E|]. rewrite (ex_trunc v (n * 4 * 3) (k + 1)); try lia.
  - rewrite Z.pow_add_r by lia. change (2 ^ 1) with 2. rewrite (Z.mul_comm (2 ^ k) 2), <- Z.div_div by lia.
    f_equal. replace (n * 4 * 3) with (6 * n * 2) by lia. apply Z.div_mul. lia.
  - replace (- (k + 1)) with (0 - k + -1) by lia. exact E.
Qed.

Lemma memory_room p s : accepted p -> elements p < 2 ^ 49 -> (s <= nsteps p * bands p)%nat ->
  memory_size (shape p) s = Ok (room p s) /\ 0 <= room p s.
Proof.
  intros HA HN Hs. pose proof (subband_lt p HA) as _.
  assert (Hst : 0 <= steps p < 64).
  { pose proof HA as (Hr & Hl & Ht & Hsz). destruct Hr as (_ & _ & _ & Hu & _). split; [unfold u64 in Hu; lia|].
    destruct Hl as (Hd & Hm & Hst). destruct (Z.eqb_spec (wtype p) 0) as [E|E]; [lia|].
    destruct (shape p) as [|n l]; [cbn in Hd; lia|]. apply Forall_cons_iff in Hst, Hsz.
    destruct Hst as [Hst _], Hsz as [Hsz _].
    destruct (Z_lt_ge_dec (steps p) 64); auto. exfalso.
    assert (2 ^ 64 <= 2 ^ steps p) by (apply Z.pow_le_mono_r; lia). nia. }
  assert (Hn : (nsteps p <= 63)%nat) by (unfold nsteps; lia).
  assert (Hpos : Forall (fun n => 0 <= n) (shape p)).
  { destruct HA as ((Hr & _) & _). eapply Forall_impl; [|exact Hr]. intros a Ha. unfold u64 in Ha. lia. }
  assert (Hd : length (shape p) = 1%nat \/ length (shape p) = 2%nat) by (destruct HA as (_ & (H & _) & _); exact H).
  unfold memory_size, room, elements in *. unfold bands, is_1d, dimension in Hs.
  destruct (shape p) as [|n0 [|n1 [|n2 sh]]]; cbn [length] in *; try lia.
  - apply Forall_inv in Hpos. cbn [fold_right] in HN. cbn [Nat.eqb rd nth_error bind].
    change ((1 =? 1)%nat) with true in *. cbv iota in *.
    assert (Hs' : Z.of_nat s <= 200) by lia.
    destruct (memory_val n0 (Z.of_nat s) ltac:(lia) ltac:(lia)) as (F & T).
    assert (R : 0 <= 6 * n0 / 2 ^ Z.of_nat s <= 6 * n0).
    { assert (P : 0 < 2 ^ Z.of_nat s) by (apply Z.pow_pos_nonneg; lia). split; [apply Z.div_pos; lia|].
      apply Z.div_le_upper_bound; nia. }
    rewrite F, T. cbn [andb]. rewrite guard_true by lia. cbn [bind]. split; [reflexivity|lia].
  - pose proof (Forall_inv Hpos) as H0. apply Forall_inv_tail in Hpos. apply Forall_inv in Hpos. cbn [fold_right] in HN.
    rewrite Z.mul_1_r in HN. assert (H01 : 0 <= n0 * n1) by (apply Z.mul_nonneg_nonneg; auto).
    cbn [Nat.eqb rd nth_error bind].
    assert (W : wrap64 (n0 * n1) = n0 * n1) by (unfold wrap64; apply Z.mod_small; lia). rewrite W.
    assert (Hs' : (s <= 189)%nat) by (change (2 =? 1)%nat with false in Hs; cbv iota in Hs; lia).
    pose proof (Nat.div_le_upper_bound s 3 63 ltac:(lia) ltac:(lia)) as Hq.
    destruct (memory_val (n0 * n1) (2 * Z.of_nat (s / 3)) ltac:(lia) ltac:(lia)) as (F & T).
    assert (P4 : 2 ^ (2 * Z.of_nat (s / 3)) = 4 ^ (Z.of_nat s / 3)).
    { rewrite Z.pow_mul_r by lia. change (2 ^ 2) with 4. f_equal. rewrite Nat2Z.inj_div. reflexivity. }
    rewrite P4 in T.
    assert (R : 0 <= 6 * (n0 * n1) / 4 ^ (Z.of_nat s / 3) <= 6 * (n0 * n1)).
    { assert (P : 0 < 4 ^ (Z.of_nat s / 3)) by (apply Z.pow_pos_nonneg; [lia|apply Z.div_pos; lia]).
      split; [apply Z.div_pos; lia|]. apply Z.div_le_upper_bound; [lia|]. generalize dependent (n0 * n1). intros; nia. }
    rewrite F, T. cbn [andb]. rewrite guard_true by lia. cbn [bind]. split; [reflexivity|lia].
Qed.

(** ** One subband *)
Lemma entries_nz l : entries 0 l = nz l.
Proof.
  assert (G : forall l a, entries (Z.of_nat a) l
    = filter (fun kx => negb (is_zero (snd kx))) (combine (map Z.of_nat (seq a (length l))) l)).
  { clear. induction l as [|x l IH]; intros a; [reflexivity|]. cbn [entries length seq map combine filter snd].
    replace (Z.of_nat a + 1) with (Z.of_nat (S a)) by lia. rewrite IH. destruct (is_zero x); reflexivity. }
  exact (G l 0%nat).
Qed.
Lemma entries_sparse l : forall k n, 0 <= k -> k + Z.of_nat (length l) <= n ->
  rising (k - 1) n (map fst (entries k l)) /\ Forall (fun v => is_zero v = false) (map snd (entries k l)).
Proof.
  induction l as [|x l IH]; intros k n Hk Hn; [split; constructor|]. cbn [entries]. cbn [length] in Hn.
  destruct (IH (k + 1) n ltac:(lia) ltac:(lia)) as (R & Z). replace (k + 1 - 1) with k in R by lia.
  destruct (is_zero x) eqn:E.
  - split; [|exact Z]. revert R. generalize (map fst (entries (k + 1) l)). intros [|i t]; cbn [rising]; [auto|].
    intros (H1 & H2). split; [lia|exact H2].
  - cbn [map fst snd rising]. split; [split; [lia|exact R]|constructor; auto].
Qed.

Lemma origin_sparse fl m : (7 <= fl <= 21 \/ fl = 23) -> (1 <= length (entries 0 (elts m)))%nat ->
  Z.of_nat (rows m) * Z.of_nat (cols m) <= 2 ^ 15 -> mwf m -> sparse (origin_of fl m).
Proof.
  intros Hfl Hn Hsz W. unfold mwf in W.
  assert (L : (1 <= length (elts m))%nat) by (destruct (elts m); cbn in *; lia).
  assert (R : 1 <= Z.of_nat (rows m) /\ 1 <= Z.of_nat (cols m)) by nia.
  destruct (entries_sparse (elts m) 0 (Z.of_nat (rows m) * Z.of_nat (cols m)) ltac:(lia) ltac:(lia)) as (H1 & H2).
  constructor; cbn [origin_of o_frag o_rows o_cols o_indexes o_values]; auto; try nia.
  - intros X. apply (f_equal (@length _)) in X. rewrite map_length in X. cbn in X. lia.
  - rewrite !map_length. reflexivity.
Qed.

Lemma stream_ok fl p s m bytes : (7 <= fl <= 21 \/ fl = 23) -> stream_for fl p s m bytes ->
  Forall is_byte bytes /\ Z.of_nat (length bytes) < 2 ^ 64 /\
  (exists im, M_SfCodec.decompress (new_impl (Z.to_nat (room p s))) bytes = Ok (Some (read_back (origin_of fl m)), im)) /\
  fill_subband (read_back (origin_of fl m)) = Ok (map_mat (clean (kept fl)) m).
Proof.
  intros Hfl (H1 & H2 & H3 & H4 & H5 & H6).
  pose proof (origin_sparse fl m Hfl H1 H2 H3) as Hs.
  assert (HV : length (o_values (origin_of fl m)) = length (entries 0 (elts m))) by (cbn; apply map_length).
  destruct (small_round_trip (4 * (74 + 3 * length (entries 0 (elts m)))) (Z.to_nat (room p s)) (origin_of fl m) Hs)
    as (blob & C & L & B & D); [cbn; lia|rewrite HV; lia|].
  assert (blob = bytes) by congruence. subst blob. rewrite HV in L, D.
  assert (HE : (length (entries 0 (elts m)) <= length (elts m))%nat).
  { rewrite entries_nz. apply nz_length. }
  split; [exact B|]. split; [unfold mwf in H3; nia|]. split; [apply D; lia|].
  unfold fill_subband, read_back, origin_of. cbn [o_indexes o_values o_rows o_cols o_frag].
  rewrite entries_nz. apply from_csr_nz; auto. lia.
Qed.

(** ** All of them *)
Lemma both_lift {X} o (r : res X) x : r = Ok x -> both o (lift r) [] x.
Proof. intros ->. split; [intros rest; reflexivity|apply cut_nil]. Qed.

Definition cleaned (fl : Z) (m : mat word) : mat word := map_mat (clean (kept fl)) m.

Lemma channel_both fl p : (7 <= fl <= 21 \/ fl = 23) -> accepted p -> elements p < 2 ^ 49 ->
  forall ch ss s, streams_from (stream_for fl p) s ch ss -> (s + length ch <= nsteps p * bands p + 1)%nat ->
  both throws (legacy_channel (shape p) s (length ch)) (concat (map put_bytes ss)) (Some (map (cleaned fl) ch)).
Proof.
  intros Hfl HA HN. induction ch as [|m ch IH]; intros [|bytes ss] s H Hs; cbn [streams_from] in H; try contradiction.
  - apply both_ret.
  - destruct H as (H & Ht). cbn [length] in *. cbn [legacy_channel map concat].
    destruct (stream_ok fl p s m bytes Hfl H) as (B & L & (im & D) & F).
    destruct (memory_room p s HA HN ltac:(lia)) as (M & _).
    eapply both_bind; [apply escapes_throws|apply both_bytes; auto|].
    eapply both_bind0; [apply escapes_throws|apply both_lift; exact M|].
    eapply both_bind0; [apply escapes_throws|apply both_lift; exact D|]. cbn [fst].
    eapply both_bind0; [apply escapes_throws|apply both_lift; exact F|].
    refine (both_last_eq throws _ (fun t => match t with Some t => Some (cleaned fl m :: t) | None => None end) _ (Some (map (cleaned fl) ch)) _ _ eq_refl _);
      [apply escapes_throws|]. apply IH; [exact Ht|lia].
Qed.
Lemma channels_both fl p {X} : (7 <= fl <= 21 \/ fl = 23) -> accepted p -> elements p < 2 ^ 49 ->
  forall (shp : list (list X)) dec streams,
  Forall2 (fun s ch => length s = length ch) shp dec ->
  Forall (fun ch => length ch = (nsteps p * bands p + 1)%nat) dec ->
  Forall2 (streams_from (stream_for fl p) 0) dec streams ->
  both throws (legacy_channels (shape p) shp) (concat (map put_bytes (concat streams))) (Some (map (map (cleaned fl)) dec)).
Proof.
  intros Hfl HA HN. induction shp as [|c shp IH]; intros dec streams H1 H2 H3; inversion H1; subst.
  - inversion H3; subst. apply both_ret.
  - inversion H2; subst. inversion H3; subst. cbn [legacy_channels concat map]. rewrite map_app, concat_app.
    rewrite H4. eapply both_bind; [apply escapes_throws|apply channel_both; eauto; lia|].
    refine (both_last_eq throws _ (fun t => match t with Some t => Some (map (cleaned fl) y :: t) | None => None end) _ (Some (map (map (cleaned fl)) l')) _ _ eq_refl _);
      [apply escapes_throws|]. apply IH; eauto.
Qed.

Theorem legacy_round_trip cd b fl sf streams extra : storable b -> elements (bpar b) < 2 ^ 49 ->
  (7 <= fl <= 21 \/ fl = 23) -> 1 <= sf < 256 -> streams_for fl b streams ->
  parse cd parse_legacy (blob_v2_compressed (bpar b) sf streams ++ extra) = Ok (Some (map_buffer (clean (kept fl)) b)).
Proof.
  intros HS HN Hfl Hsf HT. pose proof HS as (HA & HL & HC).
  destruct (storable_new b HS) as (b0 & E & Ep & HF).
  assert (HD : Forall (fun ch => length ch = (nsteps (bpar b) * bands (bpar b) + 1)%nat) (bdec b)).
  { apply Forall_forall. intros ch Hch. apply HC; auto. }
  destruct (channels_both fl (bpar b) Hfl HA HN (bdec b0) (bdec b) streams HF HD HT) as (HB & _).
  destruct (both_header2 (bpar b) sf HA ltac:(lia)) as (HH & _).
  unfold blob_v2_compressed, parse. cbn [app first_char]. change (is_blank 2) with false. cbv iota.
  change (2 =? serialization_version) with false. change (2 =? 2) with true. cbv iota. unfold parse_v2.
  replace (2 :: (put_params (bpar b) ++ sf :: concat (map put_bytes (concat streams))) ++ extra)
    with (([2] ++ put_params (bpar b) ++ [sf]) ++ (concat (map put_bytes (concat streams)) ++ extra))
    by (cbn [app]; rewrite <- !app_assoc; reflexivity).
  rewrite HH. cbn [bind]. rewrite E. cbn [bind]. replace (sf =? 0) with false by lia. cbn [negb].
  unfold parse_legacy. rewrite Ep, HB. cbn [bind fst catch]. reflexivity.
Qed.

Theorem legacy_truncated cd b fl sf streams pre suf : storable b -> elements (bpar b) < 2 ^ 49 ->
  (7 <= fl <= 21 \/ fl = 23) -> 1 <= sf < 256 -> streams_for fl b streams ->
  blob_v2_compressed (bpar b) sf streams = pre ++ suf -> suf <> [] ->
  ((header_length (bpar b) <= length pre)%nat -> parse cd parse_legacy pre = Ok None) /\
  ((length pre < header_length (bpar b))%nat -> parse cd parse_legacy pre = UB).
Proof.
  intros HS HN Hfl Hsf HT Eb Hne. pose proof HS as (HA & HL & HC).
  destruct (storable_new b HS) as (b0 & E & Ep & HF).
  assert (HD : Forall (fun ch => length ch = (nsteps (bpar b) * bands (bpar b) + 1)%nat) (bdec b)).
  { apply Forall_forall. intros ch Hch. apply HC; auto. }
  destruct (channels_both fl (bpar b) Hfl HA HN (bdec b0) (bdec b) streams HF HD HT) as (_ & HB).
  destruct (both_header2 (bpar b) sf HA ltac:(lia)) as (HH & HH2).
  set (hd := [2] ++ put_params (bpar b) ++ [sf]) in *.
  assert (Hlen : length hd = header_length (bpar b)).
  { unfold hd, header_length. rewrite !app_length, put_params_length. cbn [length]. lia. }
  assert (Eb' : pre ++ suf = hd ++ concat (map put_bytes (concat streams))).
  { rewrite <- Eb. unfold hd, blob_v2_compressed. rewrite <- !app_assoc. reflexivity. }
  assert (Hp : parse cd parse_legacy pre = match pre with [] => UB | _ => parse_v2 parse_legacy pre end).
  { unfold parse. destruct pre as [|c pre]; [reflexivity|].
    assert (c = 2) by (unfold hd in Eb'; cbn in Eb'; congruence). subst c. reflexivity. }
  rewrite Hp. split; intros HLn.
  - destruct (app_cut _ _ _ _ Eb') as [(l & E1 & Hl)|(l & E1 & E2)].
    { assert (length hd = length pre + length l)%nat by (rewrite E1; apply app_length).
      destruct l as [|z l]; [congruence|]. cbn [length] in H. lia. }
    destruct pre as [|c pre]; [unfold header_length in HLn; cbn in HLn; lia|].
    unfold parse_v2. rewrite E1, HH. cbn [bind]. rewrite E. cbn [bind]. replace (sf =? 0) with false by lia. cbn [negb].
    unfold parse_legacy. rewrite Ep. rewrite (HB _ _ E2 Hne). reflexivity.
  - destruct pre as [|c pre]; [reflexivity|].
    destruct (app_cut _ _ _ _ Eb') as [(l & E1 & Hl)|(l & E1 & E2)].
    2:{ assert (length (c :: pre) = length hd + length l)%nat by (rewrite E1; apply app_length). lia. }
    unfold parse_v2. rewrite (HH2 _ _ E1 Hl). reflexivity.
Qed.

(** ** The values of a decomposed channel always fit *)
Lemma round_up_twice k n : (k = 0 \/ 2 ^ k <= n)%nat -> (round_up k n <= 2 * n)%nat.
Proof.
  intros H. unfold round_up. destruct H as [->|H].
  - change (2 ^ 0)%nat with 1%nat. rewrite Nat.div_1_r. lia.
  - assert (0 < 2 ^ k)%nat by (apply Nat.neq_0_lt_0, Nat.pow_nonzero; lia).
    pose proof (Nat.mul_div_le (n + 2 ^ k - 1) (2 ^ k) ltac:(lia)). lia.
Qed.
Lemma level_twice k n s q : (k = 0 \/ 2 ^ k <= n)%nat -> (q <= s)%nat -> (round_up k n / 2 ^ s * 2 ^ q <= 2 * n)%nat.
Proof.
  intros H Hq. transitivity (round_up k n / 2 ^ s * 2 ^ s)%nat.
  - apply Nat.mul_le_mono_l, Nat.pow_le_mono_r; lia.
  - rewrite Nat.mul_comm. etransitivity; [apply Nat.mul_div_le, Nat.pow_nonzero; lia|]. apply round_up_twice. auto.
Qed.

Lemma layout_room {T} p (ch : list (mat T)) j m : accepted p -> has_layout p ch -> nth_error ch j = Some m ->
  Z.of_nat (rows m) * Z.of_nat (cols m) <= room p j.
Proof.
  intros HA (L1 & L2 & L3) Hj. pose proof (bands_pos p) as Hb.
  assert (Hside : forall n, In n (shape p) -> 0 <= n /\ (nsteps p = 0 \/ 2 ^ nsteps p <= Z.to_nat n)%nat).
  { intros n Hin. destruct HA as ((Hr & Hu) & (Hd & Hm & Hst) & Ht & _). rewrite Forall_forall in Hr. specialize (Hr n Hin).
    split; [unfold u64 in Hr; lia|]. unfold nsteps. destruct (Z.eqb_spec (wtype p) 0) as [E|E]; [left; lia|].
    right. rewrite Forall_forall in Hst. specialize (Hst n Hin). destruct (Z_lt_ge_dec (steps p) 0) as [X|X].
    { replace (Z.to_nat (steps p)) with 0%nat by lia. cbn. destruct Hu as (_ & _ & Hu & _). unfold u64 in Hu. lia. }
    rewrite <- (Z2Nat.id (steps p)) in Hst by lia.
    pose proof (Nat2Z.inj_pow 2 (Z.to_nat (steps p))) as Pw. change (Z.of_nat 2) with 2 in Pw. rewrite <- Pw in Hst.
    assert (2 ^ Z.to_nat (steps p) <> 0)%nat by (apply Nat.pow_nonzero; lia). nia. }
  assert (G : exists s, (j / bands p <= s)%nat /\ sized (level_rows p s) (level_cols p s) m).
  { assert (j < length ch)%nat by (apply nth_error_Some; congruence).
    destruct (Nat.eq_dec j (nsteps p * bands p)) as [->|Hne].
    - exists (nsteps p). rewrite Nat.div_mul by lia. auto.
    - destruct (idx_inv j (nsteps p) (bands p)) as (A & B & C); [lia|].
      exists (j / bands p + 1)%nat. split; [lia|]. apply (L2 (j / bands p)%nat (j mod bands p)%nat); auto. congruence. }
  destruct G as (s & Hq & (_ & Er & Ec)). rewrite Er, Ec. unfold level_rows, level_cols, room, bands, is_1d, drows, dcols in *.
  destruct (acc_cases p HA) as [(n & E & _)|(w & h & E & _)]; rewrite E in *; cbn [length Nat.eqb] in *.
  - rewrite Nat.div_1_r in Hq. destruct (Hside n (or_introl eq_refl)) as (Hn & Hk).
    pose proof (level_twice (nsteps p) (Z.to_nat n) s j Hk Hq) as X.
    apply Z.div_le_lower_bound; [apply Z.pow_pos_nonneg; lia|].
    pose proof (Nat2Z.inj_pow 2 j) as Pw. change (Z.of_nat 2) with 2 in Pw. rewrite <- Pw. nia.
  - destruct (Hside w (or_introl eq_refl)) as (Hw & Hkw). destruct (Hside h (or_intror (or_introl eq_refl))) as (Hh & Hkh).
    pose proof (level_twice (nsteps p) (Z.to_nat w) s (j / 3) Hkw Hq) as X.
    pose proof (level_twice (nsteps p) (Z.to_nat h) s (j / 3) Hkh Hq) as Y.
    assert (E3 : Z.of_nat j / 3 = Z.of_nat (j / 3)) by (rewrite Nat2Z.inj_div; reflexivity). rewrite E3.
    apply Z.div_le_lower_bound; [apply Z.pow_pos_nonneg; lia|].
    change 4 with (2 * 2). rewrite Z.pow_mul_l. pose proof (Nat2Z.inj_pow 2 (j / 3)) as Pw. change (Z.of_nat 2) with 2 in Pw. rewrite <- Pw.
    set (P := (2 ^ (j / 3))%nat) in *. set (R := (round_up (nsteps p) (Z.to_nat w) / 2 ^ s)%nat) in *.
    set (C := (round_up (nsteps p) (Z.to_nat h) / 2 ^ s)%nat) in *. clearbody P R C.
    assert (X' : Z.of_nat R * Z.of_nat P <= 2 * w) by nia. assert (Y' : Z.of_nat C * Z.of_nat P <= 2 * h) by nia.
    assert (Z.of_nat R * Z.of_nat P * (Z.of_nat C * Z.of_nat P) <= 2 * w * (2 * h)) by (apply Z.mul_le_mono_nonneg; nia).
    nia.
Qed.

(** ** Another version of the compressor *)
Lemma other_version cap c bytes : 64 <= c < 256 -> (length (c :: bytes) <= cap)%nat ->
  exists im, M_SfCodec.decompress (new_impl cap) (c :: bytes) = Ok (None, im).
Proof.
  intros Hc Hl. unfold M_SfCodec.decompress, new_impl. cbn [i_data]. rewrite repeat_length, guard_true by (apply Nat.leb_le; exact Hl).
  cbn [bind]. unfold get_bits. change (w8 2) with 2. change (S (Z.to_nat 2)) with 3%nat. cbn [get_bits_loop].
  change (0 <? 2) with true. cbv iota. cbn [r_free r_nr r_data app]. change (8 =? 0) with false. cbv iota.
  cbn [rd nth_error bind]. change (2 <=? 8) with true. cbv iota. unfold wr. cbn [length].
  match goal with |- context [if ?b then _ else _] => destruct b eqn:E end; [|discriminate].
  cbn [bind]. change (8 - 2) with 6.
  assert (V : w32 (w32 (Z.shiftl 0 2) + Z.shiftr c 6) = c / 64).
  { rewrite Z.shiftr_div_pow2 by lia. change (w32 (Z.shiftl 0 2)) with 0. change (2 ^ 6) with 64. unfold w32. apply Z.mod_small.
    assert (0 <= c / 64) by (apply Z.div_pos; lia). assert (c / 64 <= 256) by (apply Z.div_le_upper_bound; lia). lia. }
  rewrite V. assert (1 <= c / 64) by (apply Z.div_le_lower_bound; lia).
  destruct (Z.eqb_spec (c / 64) 0); [lia|]. eauto.
Qed.

Theorem legacy_other_version cd p sf c bytes extra :
  accepted p -> elements p < 2 ^ 49 -> 1 <= signum p -> 1 <= sf < 256 ->
  64 <= c < 256 -> Forall is_byte bytes -> Z.of_nat (length (c :: bytes)) <= room p 0 -> room p 0 < 2 ^ 64 ->
  parse cd parse_legacy ([2] ++ put_params p ++ [sf] ++ put_bytes (c :: bytes) ++ extra) = Ok None.
Proof.
  intros HA HN Hs Hsf Hc HB HL HR.
  destruct (both_header2 p sf HA ltac:(lia)) as (HH & _).
  unfold parse. cbn [app first_char]. change (is_blank 2) with false. cbv iota.
  change (2 =? serialization_version) with false. change (2 =? 2) with true. cbv iota. unfold parse_v2.
  replace (2 :: put_params p ++ sf :: put_bytes (c :: bytes) ++ extra)
    with (([2] ++ put_params p ++ [sf]) ++ (put_bytes (c :: bytes) ++ extra))
    by (cbn [app]; rewrite <- !app_assoc; reflexivity).
  rewrite HH. cbn [bind].
  pose proof HA as (Hr & Hl & Ht & _). rewrite (P_Params.new_buffer_legal (T := word)) by (auto; lia). cbn [bind].
  replace (sf =? 0) with false by lia. cbn [negb]. unfold parse_legacy. cbn [bpar bdec].
  replace (Z.to_nat (signum p)) with (S (Z.to_nat (signum p) - 1)) by lia. cbn [repeat legacy_channels].
  rewrite repeat_length, dsize_bands by auto. replace (nsteps p * bands p + 1)%nat with (S (nsteps p * bands p)) by lia. cbn [legacy_channel].
  destruct (both_bytes (c :: bytes)) as (RB & _); [constructor; [unfold is_byte; lia|auto]|lia|].
  destruct (memory_room p 0 HA HN ltac:(lia)) as (M & _).
  destruct (other_version (Z.to_nat (room p 0)) c bytes Hc ltac:(lia)) as (im & D).
  unfold rbind at 1. unfold rbind at 1. rewrite RB. cbn [bind fst snd].
  unfold rbind at 1, lift at 1. rewrite M. cbn [bind fst snd].
  unfold rbind at 1, lift at 1. rewrite D. reflexivity.
Qed.
