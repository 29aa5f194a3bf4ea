(** * P_Size: the size of compressed blobs *)
Require Import List Bool Arith ZArith Lia.
Require Import Verif.M_Base Verif.M_Params Verif.M_Buffer Verif.M_Archive Verif.M_Serializer Verif.S_Params Verif.S_Buffer
  Verif.S_Serializer Verif.S_Damage Verif.S_Size Verif.P_Base Verif.P_Denoise Verif.P_Api2 Verif.P_Archive Verif.P_Csr Verif.P_Serializer Verif.P_Blob Verif.P_Damage.
Import ListNotations.
Open Scope Z_scope.

(** ** places and values are what ConvertToCSR collects *)
Lemma places_snoc l x : forall k, places_from k (l ++ [x]) =
  places_from k l ++ (if is_zero x then [] else [k + Z.of_nat (length l)]).
Proof.
  induction l as [|y l IH]; intros k; cbn [app places_from length].
  - destruct (is_zero x); [reflexivity|]. cbn. f_equal. lia.
  - replace (k + Z.of_nat (S (length l))) with (k + 1 + Z.of_nat (length l)) by lia.
    rewrite IH. destruct (is_zero y); reflexivity.
Qed.
Lemma nz_places l : map fst (nz l) = places_from 0 l.
Proof.
  induction l as [|x l IH] using rev_ind; [reflexivity|].
  rewrite nz_snoc, places_snoc, map_app, IH. f_equal. destruct (is_zero x); reflexivity.
Qed.
Lemma nz_values l : map snd (nz l) = filter (fun x => negb (is_zero x)) l.
Proof.
  induction l as [|x l IH] using rev_ind; [reflexivity|].
  rewrite nz_snoc, filter_app, map_app, IH. f_equal. cbn [filter]. destruct (is_zero x); reflexivity.
Qed.
Lemma places_count l : forall k, length (places_from k l) = length (filter (fun x => negb (is_zero x)) l).
Proof.
  induction l as [|x l IH]; intros k; [reflexivity|]. cbn [places_from filter].
  destruct (is_zero x); cbn [negb length]; rewrite IH; reflexivity.
Qed.

(** ** the deltas that are encoded are the gaps *)
Inductive rises : Z -> list Z -> Z -> Prop :=
| rises_nil a z : a <= z -> rises a [] z
| rises_cons a x l z : a <= x -> x < z -> rises x l z -> rises a (x :: l) z.
Lemma places_rise l : forall k a, a <= k -> rises a (places_from k l) (k + Z.of_nat (length l)).
Proof.
  induction l as [|x l IH]; intros k a H; cbn [places_from length].
  - constructor. lia.
  - replace (k + Z.of_nat (S (length l))) with (k + 1 + Z.of_nat (length l)) by lia. destruct (is_zero x).
    + apply IH. lia.
    + constructor; [lia|lia|apply IH; lia].
Qed.
Lemma deltas_gaps l a z : rises a l z -> 0 <= a -> z <= 2 ^ 32 -> deltas a l = gaps a l.
Proof.
  induction 1 as [|a x l z H1 H2 H3 IH]; intros Ha Hz; [reflexivity|]. cbn [deltas gaps]. rewrite IH by lia.
  f_equal. apply Z.mod_small. lia.
Qed.
Lemma code_bytes d : Z.to_nat (svb_code d + 1) = gap_bytes d.
Proof.
  unfold svb_code, gap_bytes. change (2 ^ 8) with 256. change (2 ^ 16) with 65536. change (2 ^ 24) with 16777216.
  repeat destruct (_ <? _); reflexivity.
Qed.
Lemma encode_size l z : rises 0 l z -> z <= 2 ^ 32 ->
  length (svb_delta_encode l) = ((length l + 3) / 4 + list_sum (map gap_bytes (gaps 0 l)))%nat.
Proof.
  intros H Hz. unfold svb_delta_encode. rewrite app_length, control_length, map_length, deltas_length. f_equal.
  rewrite (deltas_gaps l 0 z) by (auto; lia). generalize (gaps 0 l) as g.
  induction g as [|d g IH]; [reflexivity|]. cbn [map concat]. rewrite app_length, le_length, IH, code_bytes. reflexivity.
Qed.

(** ** one subband *)
Lemma subband_length cd sf m enc : mwf m -> Z.of_nat (rows m) * Z.of_nat (cols m) < 2 ^ 32 -> padding_16 cd -> sf <> 0 ->
  put_subband cd sf m = Ok enc ->
  exists v, fpz_write cd (33 - sf) (nonzero_values m) = Ok v /\ length enc = subband_size m v.
Proof.
  intros W Hs HP Hsf H. unfold put_subband in H. destruct (Z.eqb_spec sf 0) as [E|E]; [contradiction|].
  apply bind_ok in H as (a & Ha & H). apply Ok_inj in H; subst enc.
  apply compress_inv in Ha; auto. destruct Ha as (vals & H1 & ->). exists vals.
  rewrite nz_values in H1. split; [exact H1|].
  cbn [ar_nonzero ar_rows ar_cols ar_indexes ar_values]. unfold put_bytes, put_u64.
  rewrite !app_length, !le_length, HP, nz_places. cbn [length].
  unfold mwf in W.
  rewrite (encode_size _ (0 + Z.of_nat (length (elts m)))) by (try apply places_rise; lia).
  unfold subband_size, place_bytes, places. lia.
Qed.

Lemma mapM_F2 {X Y} (f : X -> res Y) l : forall r, mapM f l = Ok r -> Forall2 (fun x y => f x = Ok y) l r.
Proof.
  induction l as [|x l IH]; intros r H; cbn [mapM] in H.
  - inversion H. constructor.
  - apply bind_ok in H as (y & Hy & H). apply bind_ok in H as (t & Ht & H). inversion H; subst. constructor; auto.
Qed.
Lemma F2_concat {X Y} (R : X -> Y -> Prop) a b : Forall2 (Forall2 R) a b -> Forall2 R (concat a) (concat b).
Proof. induction 1; cbn [concat]; [constructor|]. apply Forall2_app; auto. Qed.

Definition sum2 (ms : list (mat word)) (vs : list (list Z)) : nat :=
  list_sum (map (fun mv => subband_size (fst mv) (snd mv)) (combine ms vs)).
Lemma sum2_cons m ms v vs : sum2 (m :: ms) (v :: vs) = (subband_size m v + sum2 ms vs)%nat.
Proof. reflexivity. Qed.

Lemma empty_elements (b : buffer word) ch m : In ch (bdec b) -> In m ch -> (rows m <> 0 /\ cols m <> 0)%nat -> is_empty b = false.
Proof.
  intros H1 H2 (H3 & H4). destruct (is_empty b) eqn:E; [|reflexivity]. exfalso.
  rewrite is_empty_iff in E. specialize (E ch m H1 H2). lia.
Qed.

Lemma blob_size cd b sf blob : storable b -> indexable b -> no_empty_subband b -> bdec b <> [] -> 1 <= sf -> padding_16 cd ->
  serialize cd b sf = Ok (Some blob) ->
  exists vs, Forall2 (fun m v => fpz_write cd (33 - Z.min 31 sf) (nonzero_values m) = Ok v) (concat (bdec b)) vs /\
    length blob = (header_length (bpar b) + sum2 (concat (bdec b)) vs)%nat.
Proof.
  intros HS HI HN HE Hsf HP H. pose proof HS as (HA & HL & HC).
  assert (HB : body_sf b sf = Z.min 31 sf).
  { unfold body_sf. destruct (bdec b) as [|ch t] eqn:E; [contradiction|].
    assert (Hch : In ch (bdec b)) by (rewrite E; left; reflexivity).
    rewrite <- E in *. destruct (HC ch Hch) as (Hlen & _). destruct ch as [|m ch]; [cbn in Hlen; lia|].
    rewrite (empty_elements b (m :: ch) m) by (auto; try (left; reflexivity); apply (HN (m :: ch)); auto; left; reflexivity). reflexivity. }
  apply serialize_inv in H; auto. destruct H as (subs & H & ->). rewrite HB in *.
  assert (F : Forall2 (fun m e => put_subband cd (Z.min 31 sf) m = Ok e) (concat (bdec b)) (concat subs)).
  { apply F2_concat. apply mapM_F2 in H. clear - H. induction H; constructor; auto. apply mapM_F2; auto. }
  assert (G : Forall (fun m => mwf m /\ Z.of_nat (rows m) * Z.of_nat (cols m) < 2 ^ 32) (concat (bdec b))).
  { apply Forall_forall. intros m Hm. apply in_concat in Hm. destruct Hm as (ch & Hc & Hm).
    split; [|apply (HI ch); auto]. destruct (HC ch Hc) as (_ & HF). rewrite Forall_forall in HF. apply HF; auto. }
  rewrite !app_length, put_params_length. cbn [length]. clear H HE HN HI HC HS HL HA HB. revert G.
  induction F as [|m e ms es Hme F IH]; intros G.
  - exists []. split; [constructor|]. cbn [concat length]. change (sum2 [] []) with 0%nat. unfold header_length. lia.
  - inversion G as [|? ? (W & Hm) G']; subst. destruct (IH G') as (vs & Hvs & HL).
    destruct (subband_length cd (Z.min 31 sf) m e W Hm HP ltac:(lia) Hme) as (v & Hv & He).
    exists (v :: vs). split; [constructor; auto|]. cbn [concat]. rewrite app_length, He, sum2_cons. revert HL. unfold header_length. cbn [concat length]. lia.
Qed.

(** ** bounds *)
Lemma gap_small d : 0 <= d -> (1 <= gap_bytes d <= 4)%nat /\
  Z.of_nat (gap_bytes d) <= 1 + d / 256 + d / 65536 + d / 16777216.
Proof.
  intros H. unfold gap_bytes. pose proof (Z.div_pos d 256 H ltac:(lia)). pose proof (Z.div_pos d 65536 H ltac:(lia)).
  pose proof (Z.div_pos d 16777216 H ltac:(lia)).
  destruct (Z.ltb_spec d 256); [lia|]. assert (1 <= d / 256) by (apply Z.div_le_lower_bound; lia).
  destruct (Z.ltb_spec d 65536); [lia|]. assert (1 <= d / 65536) by (apply Z.div_le_lower_bound; lia).
  destruct (Z.ltb_spec d 16777216); [lia|]. assert (1 <= d / 16777216) by (apply Z.div_le_lower_bound; lia). lia.
Qed.
Lemma div_add x y d : 0 < d -> x / d + y / d <= (x + y) / d.
Proof.
  intros H. apply Z.div_le_lower_bound; [auto|]. pose proof (Z.mul_div_le x d H). pose proof (Z.mul_div_le y d H). lia.
Qed.
Lemma gaps_bound l a z : rises a l z ->
  (length l <= list_sum (map gap_bytes (gaps a l)) <= 4 * length l)%nat /\
  Z.of_nat (list_sum (map gap_bytes (gaps a l))) <= Z.of_nat (length l) + (z - a) / 256 + (z - a) / 65536 + (z - a) / 16777216.
Proof.
  induction 1 as [a z Ha|a x l z H1 H2 H3 (IH1 & IH2)]; cbn [gaps map list_sum fold_right length].
  - split; [lia|]. pose proof (Z.div_pos (z - a) 256 ltac:(lia) ltac:(lia)).
    pose proof (Z.div_pos (z - a) 65536 ltac:(lia) ltac:(lia)). pose proof (Z.div_pos (z - a) 16777216 ltac:(lia) ltac:(lia)). lia.
  - fold (list_sum (map gap_bytes (gaps x l))). destruct (gap_small (x - a) ltac:(lia)) as (G1 & G2).
    split; [lia|]. pose proof (div_add (x - a) (z - x) 256 ltac:(lia)) as D1. pose proof (div_add (x - a) (z - x) 65536 ltac:(lia)) as D2.
    pose proof (div_add (x - a) (z - x) 16777216 ltac:(lia)) as D3. replace (x - a + (z - x)) with (z - a) in * by lia. lia.
Qed.
Lemma place_bound m : mwf m -> let n := length (nonzero_values m) in
  ((n + 3) / 4 + n <= place_bytes m <= (n + 3) / 4 + 4 * n)%nat /\
  let N := Z.of_nat (rows m) * Z.of_nat (cols m) in
  Z.of_nat (place_bytes m) <= Z.of_nat ((n + 3) / 4) + Z.of_nat n + N / 256 + N / 65536 + N / 16777216.
Proof.
  intros W n. unfold mwf in W. unfold place_bytes, places.
  assert (E : length (places_from 0 (elts m)) = n) by apply places_count.
  pose proof (gaps_bound _ _ _ (places_rise (elts m) 0 0 ltac:(lia))) as (H1 & H2). rewrite E in *.
  assert (EN : 0 + Z.of_nat (length (elts m)) - 0 = Z.of_nat (rows m) * Z.of_nat (cols m)) by lia. rewrite EN in H2.
  split; [lia|]. cbv zeta. lia.
Qed.

Lemma subband_most cd prec m v : mwf m -> in_its_buffer cd prec -> fpz_write cd prec (nonzero_values m) = Ok v ->
  (subband_size m v <= most_bytes m)%nat.
Proof.
  intros W HB Hv. pose proof (place_bound m W) as (_ & H). cbv zeta in H. specialize (HB _ _ Hv).
  unfold subband_size, most_bytes. lia.
Qed.
Lemma sum2_most cd prec ms vs : Forall mwf ms -> in_its_buffer cd prec ->
  Forall2 (fun m v => fpz_write cd prec (nonzero_values m) = Ok v) ms vs ->
  (sum2 ms vs <= list_sum (map most_bytes ms))%nat.
Proof.
  intros HW HB F. induction F as [|m v ms vs H F IH]; [apply Nat.le_refl|]. inversion HW; subst.
  rewrite sum2_cons. change (list_sum (map most_bytes (m :: ms))) with (most_bytes m + list_sum (map most_bytes ms))%nat.
  pose proof (subband_most cd prec m v). specialize (IH ltac:(auto)). intuition lia.
Qed.
Lemma blob_most cd b sf blob : storable b -> indexable b -> no_empty_subband b -> bdec b <> [] -> 1 <= sf -> padding_16 cd ->
  in_its_buffer cd (33 - Z.min 31 sf) -> serialize cd b sf = Ok (Some blob) ->
  (length blob <= header_length (bpar b) + list_sum (map most_bytes (concat (bdec b))))%nat.
Proof.
  intros HS HI HN HE Hsf HP HB H. destruct (blob_size cd b sf blob) as (vs & F & ->); auto.
  pose proof (sum2_most cd _ _ _ (fits_mwf _ (storable_fits b HS)) HB F). lia.
Qed.

(** ** fewer values, fewer bytes *)
Lemma gap_sub d e : 0 <= d -> 0 <= e -> (gap_bytes (d + e) <= gap_bytes d + gap_bytes e)%nat.
Proof.
  intros H1 H2. unfold gap_bytes.
  destruct (Z.ltb_spec d 256), (Z.ltb_spec e 256), (Z.ltb_spec d 65536), (Z.ltb_spec e 65536),
    (Z.ltb_spec d 16777216), (Z.ltb_spec e 16777216), (Z.ltb_spec (d + e) 256), (Z.ltb_spec (d + e) 65536),
    (Z.ltb_spec (d + e) 16777216); lia.
Qed.
Definition gsum (a : Z) (l : list Z) : nat := list_sum (map gap_bytes (gaps a l)).
Lemma gsum_cons a x l : gsum a (x :: l) = (gap_bytes (x - a) + gsum x l)%nat.
Proof. reflexivity. Qed.
Lemma gsum_skip a x l z : rises a (x :: l) z -> (gsum a l <= gsum a (x :: l))%nat.
Proof.
  intros H. inversion H as [|? ? ? ? H1 H2 H3]; subst. rewrite gsum_cons. destruct l as [|y l]; [cbn; lia|].
  rewrite !gsum_cons. inversion H3; subst. pose proof (gap_sub (x - a) (y - x) ltac:(lia) ltac:(lia)) as G.
  replace (x - a + (y - x)) with (y - a) in G by lia. lia.
Qed.
Lemma rises_skip a x l z : rises a (x :: l) z -> rises a l z.
Proof.
  intros H. inversion H as [|? ? ? ? H1 H2 H3]; subst. inversion H3; subst; constructor; auto; lia.
Qed.
Lemma gsum_part l' l : part l' l -> forall a z, rises a l z -> (gsum a l' <= gsum a l)%nat.
Proof.
  induction 1 as [|x l' l P IH|x l' l P IH]; intros a z H.
  - apply Nat.le_refl.
  - inversion H; subst. rewrite !gsum_cons. specialize (IH x z ltac:(auto)). lia.
  - pose proof (gsum_skip a x l z H). specialize (IH a z (rises_skip a x l z H)). lia.
Qed.
Lemma part_length {X} (l' l : list X) : part l' l -> (length l' <= length l)%nat.
Proof. induction 1; cbn [length]; lia. Qed.
Lemma places_part l' l : Forall2 (fun x' x => x' = x \/ is_zero x' = true) l' l -> forall k,
  part (places_from k l') (places_from k l) /\
  part (filter (fun x => negb (is_zero x)) l') (filter (fun x => negb (is_zero x)) l).
Proof.
  induction 1 as [|x' x l' l H F IH]; intros k; [repeat constructor|]. cbn [places_from filter].
  destruct (IH (k + 1)) as (I1 & I2). destruct H as [->|H].
  - destruct (is_zero x); cbn [negb]; split; auto; apply part_keep; auto.
  - rewrite H. cbn [negb]. destruct (is_zero x); cbn [negb]; split; auto; apply part_drop; auto.
Qed.
Lemma place_less m' m : zeroed m' m -> (place_bytes m' <= place_bytes m)%nat /\ part (nonzero_values m') (nonzero_values m).
Proof.
  intros (_ & _ & F). destruct (places_part _ _ F 0) as (P & Q). split; [|exact Q].
  unfold place_bytes, places. pose proof (part_length _ _ P) as HL.
  pose proof (gsum_part _ _ P 0 _ (places_rise (elts m) 0 0 ltac:(lia))) as G. unfold gsum in G.
  assert ((length (places_from 0 (elts m')) + 3) / 4 <= (length (places_from 0 (elts m)) + 3) / 4)%nat by (apply Nat.div_le_mono; lia).
  lia.
Qed.
Lemma sum2_less cd prec ms' ms vs' vs : Forall2 zeroed ms' ms -> no_more_for_less cd prec ->
  Forall2 (fun m v => fpz_write cd prec (nonzero_values m) = Ok v) ms vs ->
  Forall2 (fun m v => fpz_write cd prec (nonzero_values m) = Ok v) ms' vs' ->
  (sum2 ms' vs' <= sum2 ms vs)%nat.
Proof.
  intros Z HC. revert vs' vs. induction Z as [|m' m ms' ms Hm Z IH]; intros vs' vs F F'; inversion F; inversion F'; subst.
  - apply Nat.le_refl.
  - rewrite !sum2_cons. destruct (place_less m' m Hm) as (P1 & P2). unfold subband_size.
    match goal with A : fpz_write _ _ (nonzero_values m) = Ok ?v, B : fpz_write _ _ (nonzero_values m') = Ok ?v' |- _ =>
      pose proof (HC _ _ v v' P2 A B) end.
    match goal with A : Forall2 _ ms ?u, B : Forall2 _ ms' ?u' |- _ => specialize (IH u' u A B) end. lia.
Qed.
Lemma sparser_less cd b' b sf blob' blob : sparser b' b ->
  storable b -> indexable b -> no_empty_subband b -> bdec b <> [] -> 1 <= sf -> padding_16 cd ->
  no_more_for_less cd (33 - Z.min 31 sf) ->
  serialize cd b sf = Ok (Some blob) -> serialize cd b' sf = Ok (Some blob') ->
  (length blob' <= length blob)%nat.
Proof.
  intros (Hp & HZ) HS HI HN HE Hsf HP HC H H'.
  assert (K : forall ch', In ch' (bdec b') -> exists ch, In ch (bdec b) /\ Forall2 zeroed ch' ch).
  { clear - HZ. induction HZ as [|c' c l' l Hc HZ IH]; intros ch' H; [destruct H|]; destruct H.
    - subst. exists c. split; [left; auto|auto].
    - destruct (IH ch' H) as (ch & A & B). exists ch. split; [right; auto|auto]. }
  assert (KM : forall ch' ch m', Forall2 zeroed ch' ch -> In m' ch' -> exists m, In m ch /\ zeroed m' m).
  { clear. induction 1 as [|c' c l' l Hc HZ IH]; intros H; [destruct H|]; destruct H.
    - subst. exists c. split; [left; auto|auto].
    - destruct (IH H) as (m & A & B). exists m. split; [right; auto|auto]. }
  assert (L : forall (c' c : list (mat word)), Forall2 zeroed c' c -> length c' = length c)
    by (induction 1; cbn [length]; auto).
  assert (HS' : storable b').
  { destruct HS as (HA & HL & HF). split; [rewrite Hp; auto|]. split.
    - rewrite Hp, <- HL. f_equal. clear - HZ. induction HZ; cbn [length]; auto.
    - intros ch' Hc. destruct (K ch' Hc) as (ch & A & B). destruct (HF ch A) as (H1 & H2). rewrite Hp.
      split; [rewrite (L _ _ B); auto|]. apply Forall_forall. intros m' Hm. destruct (KM _ _ _ B Hm) as (m & A' & B').
      rewrite Forall_forall in H2. destruct (H2 m A') as (W & F). destruct B' as (E1 & E2 & E3).
      unfold fits64. rewrite E1, E2. split; auto. unfold mwf in *. rewrite E1, E2, <- W.
      clear - E3. induction E3; cbn [length]; auto. }
  assert (HI' : indexable b').
  { intros ch' m' Hc Hm. destruct (K ch' Hc) as (ch & A & B). destruct (KM _ _ _ B Hm) as (m & A' & E1 & E2 & _).
    rewrite E1, E2. apply (HI ch); auto. }
  assert (HN' : no_empty_subband b').
  { intros ch' m' Hc Hm. destruct (K ch' Hc) as (ch & A & B). destruct (KM _ _ _ B Hm) as (m & A' & E1 & E2 & _).
    rewrite E1, E2. apply (HN ch); auto. }
  assert (HE' : bdec b' <> []).
  { intros E. apply HE. revert E HZ. generalize (bdec b) (bdec b'). intros l l' -> Z. inversion Z. reflexivity. }
  destruct (blob_size cd b sf blob) as (vs & F & ->); auto.
  destruct (blob_size cd b' sf blob') as (vs' & F' & ->); auto. rewrite Hp.
  pose proof (sum2_less cd _ _ _ _ _ (F2_concat _ _ _ HZ) HC F F'). lia.
Qed.

(** ** when compression makes the blob larger *)
Lemma full_count m : mwf m -> Forall (fun x => is_zero x = false) (elts m) -> length (nonzero_values m) = (rows m * cols m)%nat.
Proof.
  intros W H. unfold mwf in W. rewrite <- W. unfold nonzero_values. clear W. induction H as [|x l Hx H IH]; [reflexivity|].
  cbn [filter]. rewrite Hx. cbn [negb length]. f_equal. exact IH.
Qed.
Lemma sum2_larger cd prec ms vs : Forall mwf ms -> Forall (fun m => Forall (fun x => is_zero x = false) (elts m)) ms ->
  Forall2 (fun m v => fpz_write cd prec (nonzero_values m) = Ok v) ms vs ->
  Forall (fun m => forall v, fpz_write cd prec (nonzero_values m) = Ok v -> (4 * length (nonzero_values m) <= length v)%nat) ms ->
  (list_sum (map matrix_bytes ms) + 52 * length ms <= sum2 ms vs)%nat.
Proof.
  intros HW HF F H4. induction F as [|m v ms vs H F IH]; [apply Nat.le_refl|]. inversion HW; inversion HF; inversion H4; subst.
  rewrite sum2_cons. change (list_sum (map matrix_bytes (m :: ms))) with (matrix_bytes m + list_sum (map matrix_bytes ms))%nat.
  cbn [length]. specialize (IH ltac:(auto) ltac:(auto) ltac:(auto)). pose proof (place_bound m ltac:(auto)) as (P & _). cbv zeta in P.
  change (matrix_bytes m) with (28 + 4 * (rows m * cols m))%nat. unfold subband_size. pose proof (full_count m ltac:(auto) ltac:(auto)) as E.
  match goal with A : forall v, fpz_write _ _ _ = Ok v -> _ |- _ => pose proof (A _ H) as A' end. lia.
Qed.
Lemma blob_larger cd b sf blob0 blob : storable b -> indexable b -> no_empty_subband b -> bdec b <> [] -> 1 <= sf -> padding_16 cd ->
  Forall (fun m => Forall (fun x => is_zero x = false) (elts m)) (concat (bdec b)) ->
  Forall (fun m => forall v, fpz_write cd (33 - Z.min 31 sf) (nonzero_values m) = Ok v -> (4 * length (nonzero_values m) <= length v)%nat) (concat (bdec b)) ->
  serialize cd b 0 = Ok (Some blob0) -> serialize cd b sf = Ok (Some blob) ->
  (length blob0 + 52 * length (concat (bdec b)) <= length blob)%nat.
Proof.
  intros HS HI HN HE Hsf HP HF H4 H0 H. rewrite (blob_length cd b blob0) by auto.
  destruct (blob_size cd b sf blob) as (vs & F & ->); auto. unfold offset.
  pose proof (sum2_larger cd _ _ vs (fits_mwf _ (storable_fits b HS)) HF F H4). lia.
Qed.
