(** Decompose with a denoiser that may throw: whole buffers. *)
Require Import List Bool Arith ZArith Lia Psatz.
Require Import ZifyBool.
Require Import Verif.M_Base Verif.M_Params Verif.M_Padding Verif.M_Wavelet Verif.M_Buffer Verif.M_View Verif.M_Throw.
Require Import Verif.S_Params Verif.S_Padding Verif.S_Buffer Verif.S_Throw.
Require Import Verif.P_Base Verif.P_Wavelet Verif.P_Buffer Verif.P_Impl Verif.P_Api Verif.P_Api2 Verif.P_Throw.
Import ListNotations.
Open Scope nat_scope.

Section T.
Context {T : Type} {A : Arith T}.

Lemma nth_ext_e {X} (l : list X) : forall l', (forall i, nth_error l i = nth_error l' i) -> l = l'.
Proof.
  induction l as [|x l IH]; intros [|y l'] H; auto; try (specialize (H 0); discriminate).
  f_equal; [specialize (H 0); simpl in H; congruence|]. apply IH. intros i. apply (H (S i)).
Qed.

Lemma per_channel_g p : accepted p -> per_channel p = gK (geom_of p) * gspw (geom_of p).
Proof. intros HA. unfold per_channel. rewrite <- spw_bands, <- K_nsteps by auto. reflexivity. Qed.

Lemma answer_clp p den i n (m : mat T) : accepted p ->
  clp (gdim (geom_of p)) (gspw (geom_of p)) den i n m = answer p den n (i / bands p) m.
Proof.
  intros HA. unfold clp, answer, is_1d. rewrite spw_bands by auto. rewrite <- geom_dim by auto. unfold dimension.
  destruct (length (shape p) =? 1); [|reflexivity]. unfold call_1d. destruct (f1 _ _ _ _); reflexivity.
Qed.

Lemma written_at p den mem (b0 : buffer T) start c i ch d : i < per_write p ->
  nth_error (bdec b0) (start + c) = Some ch -> nth_error ch i = Some d ->
  written_from p den mem b0 start (c * per_write p + i) =
  if i <? per_channel p then answer p den (c * per_channel p + i) (i / bands p) d else if mem c then Some d else None.
Proof.
  intros Hi Hc Hd. unfold written_from.
  rewrite Nat.div_add_l by lia. rewrite Nat.div_small by lia. rewrite Nat.add_0_r.
  replace ((c * per_write p + i) mod per_write p) with i
    by (rewrite Nat.add_comm, Nat.mod_add by lia; rewrite Nat.mod_small; lia).
  unfold sub_at. rewrite Hc, Hd. reflexivity.
Qed.

Lemma answer_cla p den mem c i (m : mat T) : accepted p ->
  cla (gdim (geom_of p)) (gspw (geom_of p)) (per_channel p) den (mem c) (c * per_channel p) i m =
  if i <? per_channel p then answer p den (c * per_channel p + i) (i / bands p) m else if mem c then Some m else None.
Proof. intros HA. unfold cla. rewrite answer_clp by auto. reflexivity. Qed.

(** what is in the buffer after k writes *)
Definition left_from p den mem start count (b b0 b' : buffer T) (k : nat) : Prop :=
  bpar b' = p /\ length (bdec b') = length (bdec b) /\
  (forall ch, In ch (bdec b') -> length ch = per_write p) /\
  (forall c, c < start \/ start + count <= c -> nth_error (bdec b') c = nth_error (bdec b) c) /\
  forall c i, c < count -> i < per_write p -> sub_at b' (start + c) i =
    if c * per_write p + i <? k then written_from p den mem b0 start (c * per_write p + i) else sub_at b (start + c) i.

Definition left_by p den mem (b b0 b' : buffer T) (k : nat) : Prop :=
  bpar b' = p /\ length (bdec b') = length (bdec b) /\
  (forall ch, In ch (bdec b') -> length ch = per_write p) /\
  forall c i, c < length (bdec b) -> i < per_write p -> sub_at b' c i =
    if c * per_write p + i <? k then written p den mem b0 (c * per_write p + i) else sub_at b c i.

Lemma size_write p : accepted p -> decomposition_size p = per_write p.
Proof. intros HA. unfold decomposition_size, per_write. rewrite per_channel_g by auto. rewrite <- geom_K, <- geom_spw by auto. reflexivity. Qed.

Lemma dec_write p den (d : mat T) : accepted p -> length (dec_of p den d) = per_write p.
Proof. intros HA. unfold dec_of. rewrite dec_pure_length, <- per_channel_g by auto. reflexivity. Qed.

Lemma throw_impl p (dec : list (list (mat T))) (b0 : buffer T) data den mem start k :
  accepted p -> 1 <= length data -> Forall (shaped p) data ->
  start + length data <= length dec -> (forall ch, In ch dec -> length ch = decomposition_size p) ->
  (forall c d, nth_error data c = Some d -> nth_error (bdec b0) (start + c) = Some (dec_of p null_denoiser d)) ->
  k <= length data * per_write p ->
  (forall j, j < k -> written_from p den mem b0 start j <> None) ->
  (k < length data * per_write p -> written_from p den mem b0 start k = None) ->
  exists dec', decompose_impl_e p dec data den mem start (length data) =
      Ok (if k <? length data * per_write p then Exception else Answer true, dec') /\
    left_from p den mem start (length data) (Buffer p dec) b0 (Buffer p dec') k.
Proof.
  change (decomposition T) with (list (mat T)) in *.
  intros HA Hs HS Hrange Hlen Eb0 Hk H1 H2. unfold decompose_impl_e.
  pose proof HS as HS'. rewrite Forall_forall in HS'.
  rewrite shape_ok_acc by (auto; try lia; intros; apply HS'; eapply nth_error_In; eauto).
  cbn [bind negb]. rewrite calc_padded_acc by auto. cbn [bind].
  destruct (mats_acc p HA) as (stack & Es & HM). rewrite Es. cbn [bind].
  rewrite analysis_mat_acc by auto. cbn [bind].
  fold (mats_of p stack (filter_mat (lo_r (wtype p)) (hi_r (wtype p)))).
  set (mats := mats_of p stack (filter_mat (lo_r (wtype p)) (hi_r (wtype p)))) in *.
  set (F := fun c => channel_e p den (mem c) (map (pside p) (shape p)) mats).
  pose proof (size_write p HA) as Hds.
  assert (Hsub : forall c d i, nth_error data c = Some d -> i < per_write p ->
            exists m, nth_error (dec_of p null_denoiser d) i = Some m /\
              written_from p den mem b0 start (c * per_write p + i) =
              cla (gdim (geom_of p)) (gspw (geom_of p)) (per_channel p) den (mem c) (c * per_channel p) i m).
  { intros c d i Hd Hi. destruct (nth_error (dec_of p null_denoiser d) i) as [m|] eqn:Em.
    2:{ apply nth_error_None in Em. rewrite dec_write in Em by auto. lia. }
    exists m. split; [reflexivity|]. rewrite answer_cla by auto. eapply written_at; eauto. }
  set (pre := firstn start dec). set (olds := firstn (length data) (skipn start dec)).
  set (post := skipn (length data) (skipn start dec)).
  assert (Edec : dec = pre ++ olds ++ post).
  { unfold pre, olds, post. rewrite firstn_skipn, firstn_skipn. reflexivity. }
  assert (Lpre : length pre = start) by (unfold pre; rewrite firstn_length; lia).
  assert (Lolds : length olds = length data) by (unfold olds; rewrite firstn_length, skipn_length; lia).
  clearbody pre olds post.
  destruct (channels_e (per_channel p) F (dec_of p null_denoiser)
              (fun c i m => cla (gdim (geom_of p)) (gspw (geom_of p)) (per_channel p) den (mem c) (c * per_channel p) i m)
              data start) with (ds := data) (dpre := @nil (mat T))
              (pre := pre) (olds := olds) (post := post) (e := k) as (news & n' & El & HLn & Hc).
  - intros d. apply dec_write; auto.
  - intros c d sub Hd Hsl. unfold F. rewrite per_channel_g in * by auto.
    apply channel_e_ok; auto.
    + apply geom_wf; auto.
    + apply geom_dim; auto.
    + apply geom_K; auto.
    + apply geom_spw; auto.
    + apply add_padding_acc; auto.
  - reflexivity.
  - cbn [length]. rewrite Nat.add_0_r. exact Lpre.
  - exact Lolds.
  - intros ch Hch. rewrite Hlen; [exact Hds|]. rewrite Edec. apply in_or_app. right. apply in_or_app. left. auto.
  - exact Hk.
  - intros c i d m Hci Hi Hd Hm. destruct (Hsub c d i Hd Hi) as (m' & Hm' & Er).
    rewrite Hm in Hm'. inversion Hm'; subst m'. cbn [length]. rewrite Nat.add_0_l, <- Er. apply H1. exact Hci.
  - intros c i d m Hci Hi Hd Hm. destruct (Hsub c d i Hd Hi) as (m' & Hm' & Er).
    rewrite Hm in Hm'. inversion Hm'; subst m'. cbn [length]. rewrite Nat.add_0_l, <- Er.
    unfold per_write at 1. rewrite Hci.
    apply H2. rewrite <- Hci. apply nth_error_Some_lt in Hd. fold (per_write p) in Hi |- *.
    assert (S c * per_write p <= length data * per_write p) by (apply Nat.mul_le_mono_r; lia). simpl in H. lia.
  - rewrite Lpre in El. rewrite <- Edec in El. unfold body_e in El. unfold F in El. cbv beta in El.
    cbn [length] in El. rewrite Nat.mul_0_l in El.
    match type of El with ?L = _ => match goal with |- context [bind ?L' _] => replace L' with L by reflexivity end end.
    rewrite El. cbn [bind]. fold (per_write p).
    eexists. split; [reflexivity|]. unfold left_from. cbn [bpar bdec].
    split; [reflexivity|]. split; [rewrite Edec, !app_length; lia|]. split; [|split].
    + intros ch Hch. apply in_app_or in Hch as [Hch|Hch].
      { rewrite Hlen; [exact Hds|]. rewrite Edec. apply in_or_app; auto. }
      apply in_app_or in Hch as [Hch|Hch].
      2:{ rewrite Hlen; [exact Hds|]. rewrite Edec. apply in_or_app; right. apply in_or_app; auto. }
      apply In_nth_error in Hch as (c & Hch).
      destruct (nth_error data c) as [d|] eqn:Ed.
      2:{ apply nth_error_None in Ed. apply nth_error_Some_lt in Hch. rewrite HLn in Hch. lia. }
      destruct (Hc c d Ed) as (new & old & Hn & _ & HLnew & _). rewrite Hch in Hn. inversion Hn; subst. exact HLnew.
    + intros c Hout. rewrite Edec at 1. destruct Hout as [Hout|Hout].
      * rewrite !nth_error_app1 by lia. reflexivity.
      * rewrite !(nth_error_app2 pre) by lia. rewrite !nth_error_app2 by lia. rewrite HLn, Lolds. reflexivity.
    + intros c i Hclt Hil. destruct (nth_error data c) as [d|] eqn:Ed.
      2:{ apply nth_error_None in Ed. lia. }
      destruct (Hc c d Ed) as (new & old & Hn & Ho & HLnew & Hi).
      unfold sub_at. cbn [bdec]. change (decomposition T) with (list (mat T)) in *.
      assert (P1 : nth_error (pre ++ news ++ post) (start + c) = Some new).
      { rewrite nth_error_app2 by lia. rewrite nth_error_app1 by lia. rewrite Lpre. replace (start + c - start) with c by lia. exact Hn. }
      assert (P2 : nth_error dec (start + c) = Some old).
      { rewrite Edec, nth_error_app2 by lia. rewrite nth_error_app1 by lia. rewrite Lpre. replace (start + c - start) with c by lia. exact Ho. }
      rewrite P1, P2, Hi by exact Hil. fold (per_write p). destruct (c * per_write p + i <? k); [|reflexivity].
      destruct (Hsub c d i Ed Hil) as (m & Hm & Er). rewrite Hm, Er. cbn [length]. rewrite Nat.add_0_l. reflexivity.
Qed.

Lemma throw_exact_w p (b b0 : buffer T) data den mem k :
  accepted p -> weak_inv p b -> (1 <= signum p)%Z -> Z.of_nat (length data) = signum p -> Forall (shaped p) data ->
  b0 = Buffer p (map (dec_of p null_denoiser) data) ->
  k <= length data * per_write p ->
  (forall j, j < k -> written p den mem b0 j <> None) ->
  (k < length data * per_write p -> written p den mem b0 k = None) ->
  exists b', decompose_e b data den mem =
      Ok (if k <? length data * per_write p then Exception else Answer true, b') /\
    left_by p den mem b b0 b' k.
Proof.
  intros HA (Ep & HLb & Hlen) Hs HL HS Eb0 Hk H1 H2. unfold decompose_e. rewrite Ep.
  replace (Z.to_nat (signum p)) with (length data) by lia.
  assert (HLd : length (bdec b) = length data) by (apply Nat2Z.inj; exact (eq_trans HLb (eq_sym HL))).
  destruct (throw_impl p (bdec b) b0 data den mem 0 k HA) as (dec' & E & L1 & L2 & L3 & L4 & L5).
  - lia.
  - exact HS.
  - rewrite Nat.add_0_l. apply Nat.eq_le_incl. exact (eq_sym HLd).
  - exact Hlen.
  - intros c d Hd. rewrite Eb0. cbn [bdec]. rewrite Nat.add_0_l, nth_error_map, Hd. reflexivity.
  - exact Hk.
  - exact H1.
  - exact H2.
  - rewrite E. cbn [bind fst snd]. eexists. split; [reflexivity|].
    split; [exact L1|]. split; [exact L2|]. split; [exact L3|].
    intros c i Hc. apply L5. rewrite <- HLd. exact Hc.
Qed.

(** ** the first failing call *)
Lemma first_failing (P : nat -> option (mat T)) M :
  exists k, k <= M /\ (forall j, j < k -> P j <> None) /\ (k < M -> P k = None).
Proof.
  induction M as [|M (k & Hk & H1 & H2)].
  - exists 0. split; [lia|]. split; [intros; lia|lia].
  - destruct (Nat.eq_dec k M) as [->|Hne].
    + destruct (P M) eqn:E.
      * exists (S M). split; [lia|]. split; [|lia]. intros j Hj.
        destruct (Nat.eq_dec j M) as [->|]; [congruence|apply H1; lia].
      * exists M. split; [lia|]. split; auto.
    + exists k. split; [lia|]. split; [auto|]. intros _. apply H2. lia.
Qed.

Lemma weak_left p den mem (b b0 b' : buffer T) k : accepted p -> weak_inv p b -> left_by p den mem b b0 b' k -> weak_inv p b'.
Proof.
  intros HA (E & HL & Hlen) (E' & HL' & Hlen' & _). split; [auto|]. split; [congruence|].
  intros ch Hch. rewrite Hlen' by auto. symmetry. apply size_write; auto.
Qed.

(** ** buffers are equal when their subbands are *)
Lemma buffer_ext p (b1 b2 : buffer T) : bpar b1 = bpar b2 -> length (bdec b1) = length (bdec b2) ->
  (forall ch, In ch (bdec b1) -> length ch = per_write p) ->
  (forall ch, In ch (bdec b2) -> length ch = per_write p) ->
  (forall c i, c < length (bdec b1) -> i < per_write p -> sub_at b1 c i = sub_at b2 c i) -> b1 = b2.
Proof.
  destruct b1 as [p1 d1], b2 as [p2 d2]; cbn [bpar bdec]. intros -> HL H1 H2 H. f_equal.
  apply nth_ext_e. intros c.
  destruct (nth_error d1 c) as [c1|] eqn:E1.
  - destruct (nth_error d2 c) as [c2|] eqn:E2.
    2:{ apply nth_error_None in E2. apply nth_error_Some_lt in E1. lia. }
    f_equal. apply nth_ext_e. intros i.
    pose proof (H1 c1 (nth_error_In _ _ E1)) as L1. pose proof (H2 c2 (nth_error_In _ _ E2)) as L2.
    destruct (Nat.lt_ge_cases i (per_write p)) as [Hi|Hi].
    + specialize (H c i (nth_error_Some_lt _ _ _ E1) Hi). unfold sub_at in H. cbn [bdec] in H. rewrite E1, E2 in H. exact H.
    + rewrite !(proj2 (nth_error_None _ _)) by lia. reflexivity.
  - apply nth_error_None in E1. symmetry. apply nth_error_None. lia.
Qed.


(** ** public forms *)
Lemma null_shape : keeps_shape (@null_denoiser T).
Proof. split; [reflexivity|]. intros m s W. repeat split; auto. Qed.

Lemma null_result p (b b0 : buffer T) data :
  accepted p -> weak_inv p b -> (1 <= signum p)%Z -> Z.of_nat (length data) = signum p -> Forall (shaped p) data ->
  decompose b data null_denoiser = Ok (true, b0) -> b0 = Buffer p (map (dec_of p null_denoiser) data).
Proof.
  intros HA (E & HL & Hlen) Hs Hd HS H. rewrite (decompose_ok p HA) in H by (auto; intros; apply null_shape).
  inversion H. reflexivity.
Qed.

Lemma throw_exact p (b b0 : buffer T) data den mem k :
  accepted p -> reachable p b -> (1 <= signum p)%Z -> Z.of_nat (length data) = signum p -> Forall (shaped p) data ->
  decompose b data null_denoiser = Ok (true, b0) ->
  k <= length data * per_write p ->
  (forall j, j < k -> written p den mem b0 j <> None) ->
  (k < length data * per_write p -> written p den mem b0 k = None) ->
  exists b', decompose_e b data den mem =
      Ok (if k <? length data * per_write p then Exception else Answer true, b') /\
    left_by p den mem b b0 b' k.
Proof.
  intros HA HR Hs HL HS H. pose proof (reachable_weak p b HA HR) as HW.
  apply throw_exact_w; auto. eapply null_result; eauto.
Qed.

Lemma throw_any p (b : buffer T) data den mem :
  accepted p -> reachable p b -> (1 <= signum p)%Z -> Z.of_nat (length data) = signum p -> Forall (shaped p) data ->
  exists b0 k b', decompose b data null_denoiser = Ok (true, b0) /\
    k <= length data * per_write p /\
    (forall j, j < k -> written p den mem b0 j <> None) /\
    (k < length data * per_write p -> written p den mem b0 k = None) /\
    decompose_e b data den mem = Ok (if k <? length data * per_write p then Exception else Answer true, b') /\
    left_by p den mem b b0 b' k.
Proof.
  intros HA HR Hs HL HS. exists (Buffer p (map (dec_of p null_denoiser) data)).
  destruct (first_failing (written p den mem (Buffer p (map (dec_of p null_denoiser) data))) (length data * per_write p))
    as (k & Hk & H1 & H2).
  assert (H0 : decompose b data null_denoiser = Ok (true, Buffer p (map (dec_of p null_denoiser) data)))
    by (apply safe_ok; auto; apply null_shape).
  destruct (throw_exact p b _ data den mem k HA HR Hs HL HS H0 Hk H1 H2) as (b' & E & L).
  exists k, b'. repeat (split; [assumption|]). assumption.
Qed.

(** ** a later Decompose leaves no trace *)
Lemma throw_retry p (b b' : buffer T) data den mem o data2 den2 :
  accepted p -> reachable p b -> (1 <= signum p)%Z -> Z.of_nat (length data) = signum p -> Forall (shaped p) data ->
  decompose_e b data den mem = Ok (o, b') ->
  keeps_shape den2 -> Z.of_nat (length data2) = signum p -> Forall (shaped p) data2 ->
  exists b2, decompose b data2 den2 = Ok (true, b2) /\ decompose b' data2 den2 = Ok (true, b2).
Proof.
  intros HA HR Hs HL HS H HK HL2 HS2.
  destruct (throw_any p b data den mem HA HR Hs HL HS) as (b0 & k & b'' & _ & _ & _ & _ & E & L).
  rewrite E in H. inversion H; subst b''. pose proof (reachable_weak p b HA HR) as HW.
  pose proof (weak_left _ _ _ _ _ _ _ HA HW L) as HW'.
  exists (Buffer p (map (dec_of p den2) data2)). destruct HW as (W1 & W2 & W3), HW' as (V1 & V2 & V3).
  split; apply decompose_ok; auto; intros; apply HK.
Qed.

(** ** a denoiser that never throws *)
Lemma sub_some p (data : list (mat T)) c i : accepted p -> c < length data -> i < per_write p ->
  exists d, sub_at (Buffer p (map (dec_of p null_denoiser) data)) c i = Some d.
Proof.
  intros HA Hc Hi. unfold sub_at. cbn [bdec]. rewrite nth_error_map.
  destruct (nth_error data c) as [m|] eqn:E; [|apply nth_error_None in E; lia]. cbn [option_map].
  destruct (nth_error (dec_of p null_denoiser m) i) as [d|] eqn:Ed; [eauto|].
  apply nth_error_None in Ed. rewrite dec_write in Ed by auto. lia.
Qed.

Lemma never_written p den (data : list (mat T)) c i d : accepted p -> keeps_shape den -> i < per_write p ->
  sub_at (Buffer p (map (dec_of p null_denoiser) data)) c i = Some d ->
  written p (never_throws den) enough (Buffer p (map (dec_of p null_denoiser) data)) (c * per_write p + i) =
  Some (if i <? per_channel p then denoised p den (i / bands p) d else d).
Proof.
  intros HA HK Hi Hd. unfold sub_at in Hd. unfold written.
  destruct (nth_error (bdec _) c) as [ch|] eqn:Ec in Hd; [|discriminate].
  rewrite (written_at p _ _ _ 0 c i ch d Hi Ec Hd).
  destruct (i <? per_channel p); [|reflexivity].
  unfold answer, denoised, never_throws. cbn [f1 f2]. destruct (is_1d p); [|reflexivity].
  cbv zeta. rewrite (proj1 HK), Nat.eqb_refl. reflexivity.
Qed.

Lemma write_split p (data : list (mat T)) j : j < length data * per_write p ->
  exists c i, j = c * per_write p + i /\ c < length data /\ i < per_write p.
Proof.
  intros Hj. exists (j / per_write p), (j mod per_write p).
  assert (per_write p <> 0) by (unfold per_write; lia).
  split; [rewrite (Nat.div_mod j (per_write p)) at 1 by auto; lia|].
  split; [apply Nat.div_lt_upper_bound; lia|apply Nat.mod_upper_bound; auto].
Qed.

Lemma throw_never p (b : buffer T) data den :
  accepted p -> reachable p b -> keeps_shape den ->
  (1 <= signum p)%Z -> Z.of_nat (length data) = signum p -> Forall (shaped p) data ->
  exists b1, decompose b data den = Ok (true, b1) /\ decompose_e b data (never_throws den) enough = Ok (Answer true, b1).
Proof.
  intros HA HR HK Hs HL HS.
  exists (Buffer p (map (dec_of p den) data)). split; [apply safe_ok; auto|].
  set (b0 := Buffer p (map (dec_of p null_denoiser) data)).
  pose proof (reachable_weak p b HA HR) as HW. pose proof HW as (W1 & W2 & W3).
  assert (HLd : length (bdec b) = length data) by lia.
  destruct (throw_exact_w p b b0 data (never_throws den) enough (length data * per_write p) HA HW Hs HL HS eq_refl (le_n _))
    as (b' & E & L1 & L2 & L3 & L4).
  { intros j Hj. destruct (write_split p data j Hj) as (c & i & -> & Hc & Hi).
    destruct (sub_some p data c i HA Hc Hi) as (d & Ed). unfold b0. erewrite never_written by eauto. discriminate. }
  { lia. }
  rewrite E, Nat.ltb_irrefl. f_equal. f_equal. apply (buffer_ext p); cbn [bpar bdec]; auto.
  - rewrite map_length. lia.
  - intros ch Hch. apply in_map_iff in Hch as (m & <- & _). apply dec_write; auto.
  - intros c i Hc Hi. rewrite L2 in Hc. rewrite L4 by auto.
    assert (Hle : (c + 1) * per_write p <= length data * per_write p) by (apply Nat.mul_le_mono_r; lia).
    replace (c * per_write p + i <? length data * per_write p) with true by (symmetry; apply Nat.ltb_lt; lia).
    destruct (nth_error data c) as [m|] eqn:Em; [|apply nth_error_None in Em; lia].
    destruct (den_details p m den HA) as (D1 & D2).
    assert (E1 : forall i, sub_at (Buffer p (map (dec_of p den) data)) c i = nth_error (dec_of p den m) i).
    { intros. unfold sub_at. cbn [bdec]. rewrite nth_error_map, Em. reflexivity. }
    assert (E0 : forall i, sub_at b0 c i = nth_error (dec_of p null_denoiser m) i).
    { intros. unfold sub_at, b0. cbn [bdec]. rewrite nth_error_map, Em. reflexivity. }
    assert (Hc' : c < length data) by lia.
    destruct (sub_some p data c i HA Hc' Hi) as (x & Ex). fold b0 in Ex.
    unfold b0. rewrite (never_written p den data c i x) by auto. rewrite E1. rewrite E0 in Ex.
    destruct (Nat.ltb_spec i (per_channel p)) as [Hi'|Hge].
    + assert (Hb : bands p <> 0) by (unfold bands; destruct (is_1d p); lia).
      destruct (D2 (i / bands p) (i mod bands p)) as (d & Dd & Dn).
      { apply Nat.div_lt_upper_bound; auto. unfold per_channel in Hi'. lia. }
      { apply Nat.mod_upper_bound; auto. }
      replace (i / bands p * bands p + i mod bands p) with i in Dd, Dn by (rewrite (Nat.div_mod i (bands p)) at 1 by auto; lia).
      rewrite Ex in Dd. inversion Dd; subst d. rewrite Dn. reflexivity.
    + assert (i = per_channel p) by (unfold per_write in Hi; lia). subst i. rewrite <- Ex. unfold per_channel. symmetry. exact D1.
Qed.

(** ** the layout *)
Lemma throw_layout p (b b0 b' : buffer T) data den mem k :
  accepted p -> reachable p b -> (1 <= signum p)%Z -> Z.of_nat (length data) = signum p -> Forall (shaped p) data ->
  decompose b data null_denoiser = Ok (true, b0) -> keeps_shape_e den ->
  Forall (has_layout p) (bdec b) -> left_by p den mem b b0 b' k ->
  Forall (has_layout p) (bdec b').
Proof.
  intros HA HR Hs HL HS H0 (K1 & K2) HLay (L1 & L2 & L3 & L4).
  pose proof (reachable_weak p b HA HR) as HW. apply null_result with (p := p) in H0; auto. subst b0.
  pose proof HW as (W1 & W2 & W3). assert (HLd : length (bdec b) = length data) by lia.
  apply Forall_forall. intros ch Hch. pose proof (L3 ch Hch) as Hlen.
  apply In_nth_error in Hch as (c & Hc). pose proof (nth_error_Some_lt _ _ _ Hc) as Hlt. change (decomposition T) with (list (mat T)) in *. rewrite L2 in Hlt.
  pose proof (fun i => L4 c i Hlt) as LI.
  destruct (nth_error (bdec b) c) as [old|] eqn:Eo; [|apply nth_error_None in Eo; exfalso; exact (Nat.lt_irrefl _ (Nat.lt_le_trans _ _ _ Hlt Eo))].
  rewrite Forall_forall in HLay. destruct (HLay old (nth_error_In _ _ Eo)) as (O1 & O2 & O3).
  destruct (nth_error data c) as [m|] eqn:Em; [|apply nth_error_None in Em; lia].
  assert (E0 : forall i, sub_at (Buffer p (map (dec_of p null_denoiser) data)) c i = nth_error (dec_of p null_denoiser m) i).
  { intros. unfold sub_at. cbn [bdec]. rewrite nth_error_map, Em. reflexivity. }
  destruct (dec_of_layout p HA null_denoiser m null_shape) as (R1 & R2 & R3).
  assert (E' : forall i, sub_at b' c i = nth_error ch i) by (intros; unfold sub_at; change (decomposition T) with (list (mat T)); rewrite Hc; reflexivity).
  assert (EO : forall i, sub_at b c i = nth_error old i) by (intros; unfold sub_at; rewrite Eo; reflexivity).
  assert (ER : forall i d, i < per_write p -> nth_error (dec_of p null_denoiser m) i = Some d ->
            written p den mem (Buffer p (map (dec_of p null_denoiser) data)) (c * per_write p + i) =
            if i <? per_channel p then answer p den (c * per_channel p + i) (i / bands p) d else if mem c then Some d else None).
  { intros i d Hi Hd. unfold written. eapply written_at; [exact Hi| |exact Hd].
    cbn [bdec]. rewrite Nat.add_0_l, nth_error_map, Em. reflexivity. }
  split; [exact Hlen|]. split.
  - intros s i x Hs' Hi Hx. assert (Hsi : s * bands p + i < per_channel p) by (unfold per_channel; nia).
    specialize (LI (s * bands p + i) ltac:(unfold per_write; lia)). rewrite E', EO in LI. rewrite Hx in LI.
    destruct (c * per_write p + (s * bands p + i) <? k); [|eapply O2; eauto].
    destruct (nth_error (dec_of p null_denoiser m) (s * bands p + i)) as [d|] eqn:Ed.
    2:{ apply nth_error_None in Ed. rewrite R1 in Ed. unfold per_channel in Hsi. lia. }
    pose proof (R2 s i d Hs' Hi Ed) as (D1 & D2 & D3).
    rewrite (ER _ d) in LI by (auto; unfold per_write; lia).
    replace (s * bands p + i <? per_channel p) with true in LI by lia.
    unfold answer in LI. destruct (is_1d p) eqn:E1.
    + destruct (f1 _ _ _ _) as [v|] eqn:Ev; [|discriminate].
      destruct (Nat.eqb_spec (length v) (length (elts d))) as [Elen|]; [|discriminate]. inversion LI; subst x.
      unfold mwf in D1. unfold level_cols in *. rewrite E1 in *.
      unfold sized, mwf. cbn [rows cols elts]. rewrite D3 in D1. repeat split; lia.
    + symmetry in LI. destruct (K2 _ _ _ _ D1 LI) as (V1 & V2 & V3). repeat split; auto; congruence.
  - intros x Hx. fold (per_channel p) in Hx.
    specialize (LI (per_channel p) ltac:(unfold per_write; lia)). rewrite E', EO in LI. rewrite Hx in LI.
    destruct (_ <? k); [|symmetry in LI; eapply O3; eauto].
    destruct (nth_error (dec_of p null_denoiser m) (per_channel p)) as [d|] eqn:Ed.
    2:{ apply nth_error_None in Ed. rewrite R1 in Ed. unfold per_channel in Ed. lia. }
    rewrite (ER _ d) in LI by (auto; unfold per_write; lia). rewrite Nat.ltb_irrefl in LI.
    destruct (mem c); [|discriminate]. inversion LI; subst x. eapply R3; eauto.
Qed.

(** ** which channels the composed signal is made of *)
Lemma left_channel p den mem (b b0 b' : buffer T) k c :
  accepted p -> weak_inv p b -> left_by p den mem b b0 b' k -> c < length (bdec b) ->
  k <= c * per_write p -> nth_error (bdec b') c = nth_error (bdec b) c.
Proof.
  intros HA (W1 & W2 & W3) (L1 & L2 & L3 & L4) Hc Hk. pose proof (fun i => L4 c i Hc) as LI.
  destruct (nth_error (bdec b') c) as [n|] eqn:En; [|apply nth_error_None in En; lia].
  destruct (nth_error (bdec b) c) as [o|] eqn:Eo; [|apply nth_error_None in Eo; lia].
  f_equal. apply nth_ext_e. intros i.
  pose proof (L3 n (nth_error_In _ _ En)) as HLn. pose proof (W3 o (nth_error_In _ _ Eo)) as HLo.
  rewrite size_write in HLo by auto.
  unfold sub_at in LI. rewrite En, Eo in LI.
  destruct (Nat.lt_ge_cases i (per_write p)) as [Hi|Hi].
  - rewrite LI by auto. replace (c * per_write p + i <? k) with false by lia. reflexivity.
  - rewrite !(proj2 (nth_error_None _ _)) by lia. reflexivity.
Qed.

Lemma done_channel p den mem den2 mem2 (b b0 b' b2 : buffer T) k k2 c :
  accepted p -> weak_inv p b -> left_by p den mem b b0 b' k -> left_by p den2 mem2 b b0 b2 k2 ->
  (forall j, j < k -> written p den mem b0 j = written p den2 mem2 b0 j) -> c < length (bdec b) ->
  (c + 1) * per_write p <= k -> (c + 1) * per_write p <= k2 ->
  nth_error (bdec b') c = nth_error (bdec b2) c.
Proof.
  intros HA (W1 & W2 & W3) (L1 & L2 & L3 & L4) (M1 & M2 & M3 & M4) Hag Hc Hk Hk2.
  pose proof (fun i => L4 c i Hc) as LI. pose proof (fun i => M4 c i Hc) as MI.
  destruct (nth_error (bdec b') c) as [n|] eqn:En; [|apply nth_error_None in En; lia].
  destruct (nth_error (bdec b2) c) as [o|] eqn:Eo; [|apply nth_error_None in Eo; lia].
  f_equal. apply nth_ext_e. intros i.
  pose proof (L3 n (nth_error_In _ _ En)) as HLn. pose proof (M3 o (nth_error_In _ _ Eo)) as HLo.
  unfold sub_at in LI, MI. rewrite En in LI. rewrite Eo in MI.
  destruct (Nat.lt_ge_cases i (per_write p)) as [Hi|Hi].
  - rewrite LI, MI by auto. replace (c * per_write p + i <? k) with true by (symmetry; apply Nat.ltb_lt; lia).
    replace (c * per_write p + i <? k2) with true by (symmetry; apply Nat.ltb_lt; lia). apply Hag. lia.
  - rewrite !(proj2 (nth_error_None _ _)) by lia. reflexivity.
Qed.

(** a Decompose that throws in call k, composed: channels before the failing
    one as if the Decompose had been completed, channels after it as before *)
Lemma throw_composed p (b b0 b' b1 : buffer T) data den mem den1 mem1 k sf :
  accepted p -> reachable p b -> (1 <= signum p)%Z -> Z.of_nat (length data) = signum p -> Forall (shaped p) data ->
  decompose b data null_denoiser = Ok (true, b0) -> keeps_shape_e den -> keeps_shape_e den1 ->
  Forall (has_layout p) (bdec b) ->
  k < length data * per_write p ->
  (forall j, j < k -> written p den mem b0 j <> None) -> written p den mem b0 k = None ->
  (forall j, j < k -> written p den1 mem1 b0 j = written p den mem b0 j) ->
  decompose_e b data den mem = Ok (Exception, b') -> decompose_e b data den1 mem1 = Ok (Answer true, b1) ->
  (0 <= sf <= steps p)%Z ->
  exists out out' out1, compose b sf = Ok (true, out) /\ compose b' sf = Ok (true, out') /\ compose b1 sf = Ok (true, out1) /\
    length out' = length data /\
    forall c, c < length data ->
      (k <= c * per_write p -> nth_error out' c = nth_error out c) /\
      ((c + 1) * per_write p <= k -> nth_error out' c = nth_error out1 c).
Proof.
  intros HA HR Hs HL HS H0 HK HK1 HLay Hk HP HN Hag E E1 Hsf.
  pose proof (reachable_weak p b HA HR) as HW. pose proof HW as (W1 & W2 & W3).
  assert (HLd : length (bdec b) = length data) by lia.
  destruct (throw_exact p b b0 data den mem k HA HR Hs HL HS H0 ltac:(lia) HP (fun _ => HN)) as (x & Ex & L).
  rewrite E in Ex. replace (k <? length data * per_write p) with true in Ex by lia. inversion Ex; subst x. clear Ex.
  destruct (throw_any p b data den1 mem1 HA HR Hs HL HS) as (b0' & k1 & x & H0' & Hk1 & HP1 & HN1 & Ex & M).
  rewrite H0 in H0'. inversion H0'; subst b0'. clear H0'.
  rewrite E1 in Ex. destruct (Nat.ltb_spec k1 (length data * per_write p)) as [|Hk1']; [discriminate|].
  inversion Ex; subst x. clear Ex.
  pose proof (throw_layout p b b0 b' data den mem k HA HR Hs HL HS H0 HK HLay L) as LL.
  pose proof (throw_layout p b b0 b1 data den1 mem1 k1 HA HR Hs HL HS H0 HK1 HLay M) as LM.
  rewrite Forall_forall in LL, LM, HLay.
  pose proof (weak_left _ _ _ _ _ _ _ HA HW L) as (V1 & V2 & _). pose proof (weak_left _ _ _ _ _ _ _ HA HW M) as (U1 & U2 & _).
  exists (map (com_of p (Z.to_nat sf)) (bdec b)), (map (com_of p (Z.to_nat sf)) (bdec b')), (map (com_of p (Z.to_nat sf)) (bdec b1)).
  split; [apply compose_ok; auto|]. split; [apply compose_ok; auto|]. split; [apply compose_ok; auto|].
  rewrite map_length. split; [lia|]. intros c Hc. split; intros Hcase; rewrite !nth_error_map; f_equal.
  - eapply left_channel; eauto; lia.
  - eapply done_channel; eauto; try lia. intros. symmetry. auto.
Qed.

(** ** a refused signal *)
Lemma throw_refused (b b0 : buffer T) data den mem : decompose b data null_denoiser = Ok (false, b0) ->
  decompose_e b data den mem = Ok (Answer false, b) /\ b0 = b.
Proof.
  unfold decompose, decompose_impl, decompose_impl_gen, decompose_e, decompose_impl_e. intros H.
  apply bind_ok in H as ((r & d) & H1 & H). inversion H; subst r b0. cbn [snd]. clear H.
  apply bind_ok in H1 as (ok & E & H1). rewrite E. cbn [bind]. destruct ok; cbn [negb] in *.
  - repeat (apply bind_ok in H1 as (? & _ & H1)). discriminate.
  - inversion H1. destruct b; auto.
Qed.

(** ** views *)
Lemma view_refused v (b b0 : buffer T) data den mem : view_decompose v b data null_denoiser = Ok (false, b0) ->
  view_decompose_e v b data den mem = Ok (Answer false, b) /\ b0 = b.
Proof.
  unfold view_decompose, view_decompose_e. intros H.
  apply bind_ok in H as (ok & E & H). rewrite E. cbn [bind]. destruct ok; cbn [negb] in *; [|inversion H; auto].
  apply bind_ok in H as (u & E2 & H). rewrite E2. cbn [bind]. destruct (odd_range v).
  - apply bind_ok in H as (ok & E3 & H). rewrite E3. cbn [bind]. inversion H; auto.
  - unfold decompose_impl, decompose_impl_gen, decompose_impl_e in *.
    apply bind_ok in H as ((r & d) & H1 & H). inversion H; subst r b0. cbn [snd]. clear H.
    apply bind_ok in H1 as (ok & E3 & H1). rewrite E3. cbn [bind]. destruct ok; cbn [negb] in *.
    + repeat (apply bind_ok in H1 as (? & _ & H1)). discriminate.
    + inversion H1. destruct b; auto.
Qed.

Lemma view_null p v (b b0 : buffer T) data :
  accepted p -> weak_inv p b -> in_range v p -> vmutable v = true ->
  (1 <= vcount v)%Z -> Z.of_nat (length data) = vcount v -> Forall (shaped p) data ->
  view_decompose v b data null_denoiser = Ok (true, b0) ->
  forall c d, nth_error data c = Some d -> nth_error (bdec b0) (Z.to_nat (vstart v) + c) = Some (dec_of p null_denoiser d).
Proof.
  intros HA (E & HL2 & Hlen) HV Hmut Hc HL HS H c d Hd. pose proof HV as (V1 & V2 & V3 & V4).
  unfold view_decompose in H. rewrite check_range_in in H by (rewrite E; auto). cbn [bind negb] in H.
  rewrite guard_true in H by auto. cbn [bind] in H. rewrite (odd_in v p) in H by auto. rewrite E in H.
  rewrite decompose_impl_acc in H; auto; try lia.
  - cbn [bind fst snd] in H. inversion H; subst b0. cbn [bdec].
    rewrite (firstn_all2 data) by lia. apply nth_error_Some_lt in Hd as Hlt.
    rewrite nth_error_app2; rewrite firstn_length; [|lia].
    replace (Z.to_nat (vstart v) + c - Nat.min (Z.to_nat (vstart v)) (length (bdec b))) with c by lia.
    rewrite nth_error_app1 by (rewrite map_length; lia). rewrite nth_error_map, Hd. reflexivity.
  - intros i sub _ Hi. apply Hlen. eapply nth_error_In; eauto.
Qed.

Lemma throw_view p v (b b0 : buffer T) data den mem k :
  accepted p -> reachable p b -> in_range v p -> vmutable v = true ->
  (1 <= vcount v)%Z -> Z.of_nat (length data) = vcount v -> Forall (shaped p) data ->
  view_decompose v b data null_denoiser = Ok (true, b0) ->
  k <= length data * per_write p ->
  (forall j, j < k -> written_from p den mem b0 (Z.to_nat (vstart v)) j <> None) ->
  (k < length data * per_write p -> written_from p den mem b0 (Z.to_nat (vstart v)) k = None) ->
  exists b', view_decompose_e v b data den mem =
      Ok (if k <? length data * per_write p then Exception else Answer true, b') /\
    left_from p den mem (Z.to_nat (vstart v)) (length data) b b0 b' k.
Proof.
  intros HA HR HV Hmut Hc HL HS H0 Hk H1 H2.
  pose proof (reachable_weak p b HA HR) as HW. pose proof HW as (E & HL2 & Hlen).
  pose proof HV as (V1 & V2 & V3 & V4).
  unfold view_decompose_e. rewrite check_range_in by (rewrite E; auto). cbn [bind negb].
  rewrite guard_true by auto. cbn [bind]. rewrite (odd_in v p) by auto. rewrite E.
  replace (Z.to_nat (vcount v)) with (length data) by lia.
  destruct (throw_impl p (bdec b) b0 data den mem (Z.to_nat (vstart v)) k HA) as (dec' & Ed & L).
  - lia.
  - exact HS.
  - assert (H : Z.to_nat (vstart v) + length data <= length (bdec b)) by lia. exact H.
  - exact Hlen.
  - eapply view_null; eauto.
  - exact Hk.
  - exact H1.
  - exact H2.
  - rewrite Ed. cbn [bind fst snd]. eexists. split; [reflexivity|]. destruct b as [pb db]. cbn [bpar bdec] in *. subst pb. exact L.
Qed.

(** one-dimensional signals given as a vector *)
Lemma one_as_view (b : buffer T) data den mem : (1 <= signum (bpar b) < 2 ^ 31)%Z ->
  decompose1_e b data den mem = view_decompose_e (View 0 1 true) b [mcolvec data] den mem.
Proof.
  intros Hs. unfold view_decompose_e. rewrite check_range_in.
  - reflexivity.
  - unfold in_range. cbn [vstart vcount]. lia.
Qed.

End T.
