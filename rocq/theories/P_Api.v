(** * P_Api: the buffer API: safety, layout, frames, histories. *)
Require Import List Bool Arith ZArith QArith Lia.
Require Import ZifyBool.
Require Import Verif.M_Base Verif.M_Params Verif.M_Padding Verif.M_Wavelet Verif.M_Buffer Verif.M_View.
Require Import Verif.S_Params Verif.S_Buffer Verif.P_Base Verif.P_Params Verif.P_Padding
  Verif.P_Wavelet Verif.P_Buffer Verif.P_Impl.
Import ListNotations.
Open Scope nat_scope.

Section Sizes.
Variable p : params.
Hypothesis HA : accepted p.

Lemma pside_round_up n : In n (shape p) -> Z.to_nat (pside p n) = round_up (nsteps p) (Z.to_nat n).
Proof.
  intros Hin. unfold pside, round_up, nsteps.
  destruct (pside_facts p HA n Hin) as (H1 & H2 & H3).
  destruct (Z.eqb_spec (wtype p) 0) as [E|E].
  - rewrite (acc_none p HA E). simpl Z.to_nat. rewrite Nat.pow_0_r.
    replace (Z.to_nat n + 1 - 1) with (Z.to_nat n) by lia. rewrite Nat.div_1_r. lia.
  - destruct (H3 E) as (_ & H4 & _).
    pose proof (acc_steps p HA) as Hs.
    assert (0 < 2 ^ steps p)%Z by (apply Z.pow_pos_nonneg; lia).
    pose proof (acc_fit p HA E) as Hf. rewrite Forall_forall in Hf. specialize (Hf n Hin).
    pose proof (acc_type p HA).
    assert (Hb : (n < 2 ^ 63)%Z).
    { destruct HA as (_ & _ & _ & Hb). rewrite Forall_forall in Hb. auto. }
    assert (2 ^ steps p <= n)%Z by nia.
    unfold padded_side, wrap64. rewrite (Z.mod_small (n - 1)) by lia.
    pose proof (Z.div_mod (n - 1) (2 ^ steps p) ltac:(lia)).
    pose proof (Z.mod_pos_bound (n - 1) (2 ^ steps p) ltac:(lia)).
    rewrite Z.mod_small by nia.
    rewrite <- Z2N_pow by lia.
    set (q := (2 ^ steps p)%Z) in *. clearbody q.
    replace ((n - 1) / q + 1)%Z with ((n + q - 1) / q)%Z.
    2:{ replace (n + q - 1)%Z with (n - 1 + 1 * q)%Z by lia. rewrite Z.div_add by lia. reflexivity. }
    rewrite Z2Nat.inj_mul; [|lia|apply Z.div_pos; lia].
    f_equal. rewrite Z2Nat.inj_div by lia. f_equal. lia.
Qed.

Lemma hs_level s : hs (geom_of p) s = level_rows p s.
Proof.
  unfold hs, level_rows, geom_of, drows.
  destruct (acc_cases p HA) as [(n & E & _)|(w & h & E & _)]; rewrite E; simpl gh;
    (rewrite pside_round_up; [reflexivity|rewrite E; simpl; auto]).
Qed.
Lemma ws_level s : ws (geom_of p) s = level_cols p s.
Proof.
  unfold ws, level_cols, is_1d, geom_of, dcols.
  destruct (acc_cases p HA) as [(n & E & _)|(w & h & E & _)]; rewrite E; [reflexivity|].
  cbn [gdim gw Nat.eqb length].
  rewrite pside_round_up; [reflexivity|rewrite E; simpl; auto].
Qed.
Lemma spw_bands : gspw (geom_of p) = bands p.
Proof.
  unfold gspw, bands, is_1d, geom_of.
  destruct (acc_cases p HA) as [(n & E & _)|(w & h & E & _)]; rewrite E; reflexivity.
Qed.
Lemma K_nsteps : gK (geom_of p) = nsteps p.
Proof. unfold nsteps. rewrite <- geom_K by auto. reflexivity. Qed.

Lemma layout_iff {T} (ch : list (mat T)) : layout (geom_of p) ch <-> has_layout p ch.
Proof.
  unfold layout, has_layout, sized. rewrite spw_bands, K_nsteps.
  assert (E : forall s, S s = s + 1) by (intros; lia).
  split; intros (H1 & H2 & H3); (split; [auto|]; split).
  - intros s i m Hs Hi Hm. rewrite <- hs_level, <- ws_level, <- E. eauto.
  - intros m Hm. rewrite <- hs_level, <- ws_level. auto.
  - intros s i m Hs Hi Hm. rewrite hs_level, ws_level, E. eauto.
  - intros m Hm. rewrite hs_level, ws_level. auto.
Qed.

Lemma dsize_bands : decomposition_size p = nsteps p * bands p + 1.
Proof. unfold decomposition_size. rewrite geom_spw, spw_bands by auto. reflexivity. Qed.

Lemma dim_1d : is_1d p = (dimension p =? 1). Proof. reflexivity. Qed.
End Sizes.

Lemma keeps_den {T} (den : denoiser T) : keeps_shape den -> den_shape den.
Proof. intros [H1 H2]; split; auto. Qed.

Section Frame.
Context {T : Type} {A : Arith T}.

(** ** Frame: whatever the data, only channels in range are written *)
Lemma decompose_impl_frame gen (p : params) (dec dec' : ndecomposition T) data den start count r :
  decompose_impl_gen gen p dec data den start count = Ok (r, dec') ->
  (r = false -> dec' = dec) /\ length dec' = length dec /\
  forall i, i < start \/ start + count <= i -> nth_error dec' i = nth_error dec i.
Proof.
  unfold decompose_impl_gen. intros H.
  apply bind_ok in H as (ok & _ & H). destruct ok; cbn [negb] in H.
  2:{ inversion H; subst. auto. }
  apply bind_ok in H as (padded & _ & H). apply bind_ok in H as (stack & _ & H).
  apply bind_ok in H as (dmat & _ & H). apply bind_ok in H as (dec1 & HL & H).
  inversion H; subst r dec1; clear H.
  apply (loop_partial _ _ _ (fun n d => length d = length dec /\
     forall i, i < start \/ start + n <= i -> nth_error d i = nth_error dec i)) in HL; auto.
  - destruct HL as (HL & HF). repeat split; auto. discriminate.
  - intros i s1 s2 Hi (H1 & H2) Hb.
    apply bind_ok in Hb as (d & _ & Hb). apply bind_ok in Hb as (sub & _ & Hb).
    apply bind_ok in Hb as (sub' & _ & Hb). apply wr_ok in Hb as (Hw & ->).
    rewrite upd_length. split; auto. intros j Hj.
    rewrite upd_nth_neq by lia. apply H2; lia.
Qed.

(** ** The padded channel always has the padded size *)
Lemma add_padding_inv (p : params) (m m' : mat T) :
  accepted p -> Forall (fun n => (1 <= n)%Z) (shape p) -> mwf m ->
  add_padding m (map (pside p) (shape p)) = Ok m' ->
  exists x, m' = apm (geom_of p) x 0.
Proof.
  intros HA Hpos W H. unfold add_padding in H. rewrite rows_cols_padded in H by auto.
  cbn [bind fst snd] in H.
  destruct (drows_le p HA) as (H1 & _ & _). destruct (dcols_le p HA) as (H2 & _ & _).
  assert (HR : 1 <= gh (geom_of p) /\ 1 <= gw (geom_of p)).
  { clear - HA Hpos H1 H2. unfold drows, dcols in *. rewrite Forall_forall in Hpos.
    destruct (acc_cases p HA) as [(n & E & _)|(w & h & E & _)]; rewrite E in *.
    - specialize (Hpos n (or_introl eq_refl)). lia.
    - pose proof (Hpos w (or_introl eq_refl)). pose proof (Hpos h (or_intror (or_introl eq_refl))). lia. }
  destruct HR as (HR & HC).
  set (r := gh (geom_of p)) in *. set (c := gw (geom_of p)) in *.
  assert (Hdim : 1 <= rows m /\ 1 <= cols m /\ rows m <= r /\ cols m <= c).
  { unfold extend in H.
    apply bind_ok in H as (u & Hg & H). apply guard_ok in Hg.
    destruct (Nat.eqb_spec (r * c) 0); [nia|].
    apply bind_ok in H as (m1 & _ & H). apply bind_ok in H as (u2 & Hc & _). apply check_ok in Hc. lia. }
  destruct Hdim as (D1 & D2 & D3 & D4).
  rewrite (mat_eta a0 m W) in H. rewrite extend_mk in H by auto.
  inversion H. rewrite <- (apm_0 p HA). eexists; reflexivity.
Qed.

Lemma decompose_impl_inv (p : params) (dec dec' : ndecomposition T) data den start count r :
  accepted p -> Forall (fun n => (1 <= n)%Z) (shape p) -> keeps_shape den -> Forall mwf data ->
  (forall ch, In ch dec -> length ch = decomposition_size p) ->
  decompose_impl p dec data den start count = Ok (r, dec') ->
  r = true ->
  forall i ch, start <= i < start + count -> nth_error dec' i = Some ch -> has_layout p ch.
Proof.
  intros HA Hpos Hden Hdata Hlen. unfold decompose_impl, decompose_impl_gen. intros H Hr. subst r.
  apply bind_ok in H as (ok & _ & H). destruct ok; cbn [negb] in H; [|discriminate].
  rewrite calc_padded_acc in H by auto. cbn [bind] in H.
  destruct (mats_acc p HA (T:=T)) as (stack & Es & HM). rewrite Es in H. cbn [bind] in H.
  rewrite analysis_mat_acc in H by auto. cbn [bind] in H.
  fold (mats_of p stack (filter_mat (T:=T) (lo_r (wtype p)) (hi_r (wtype p)))) in H.
  apply bind_ok in H as (dec1 & HL & H). inversion H; subst dec1; clear H.
  apply (loop_partial _ _ _ (fun n d =>
     (forall ch, In ch d -> length ch = decomposition_size p) /\
     forall i ch, start <= i < start + n -> nth_error d i = Some ch -> has_layout p ch)) in HL.
  - intros i ch Hi Hch. destruct HL as (_ & HL). eauto.
  - split; [auto|]. intros; lia.
  - intros n s1 s2 Hn (H1 & H2) Hb.
    apply bind_ok in Hb as (d & Hd & Hb). apply bind_ok in Hb as (sub & Hsub & Hb).
    apply bind_ok in Hb as (sub' & Hch & Hb). apply wr_ok in Hb as (Hw & ->).
    assert (Hsub' : exists x, sub' = dec_pure (geom_of p) den x).
    { pose proof Hch as Hch0. unfold decompose_channel in Hch.
      apply bind_ok in Hch as (m' & Hpad & _).
      assert (mwf d). { rewrite Forall_forall in Hdata. apply Hdata. eapply nth_error_In. apply rd_ok; eauto. }
      destruct (add_padding_inv p d m' HA Hpos H Hpad) as (x & ->).
      exists x.
      rewrite (decompose_channel_ok p (geom_of p) den _ _ x) in Hch0;
        auto using geom_wf, geom_dim, geom_K, geom_spw; try congruence.
      + rewrite (H1 sub). unfold decomposition_size. rewrite geom_K, geom_spw by auto. reflexivity.
        apply rd_ok in Hsub. eapply nth_error_In; eauto.
      + intros _. intros s l. destruct Hden as (Hd1 & _). apply Hd1. }
    destruct Hsub' as (x & ->).
    assert (HLy : has_layout p (dec_pure (geom_of p) den x)).
    { apply layout_iff; auto. apply dec_pure_layout. apply keeps_den; auto. }
    split.
    + intros ch Hin. apply In_nth_error in Hin as (k & Hk).
      destruct (Nat.eq_dec k (start + n)) as [->|Hne].
      * rewrite upd_nth_eq in Hk by auto. inversion Hk; subst. rewrite dsize_bands by auto. apply HLy.
      * rewrite upd_nth_neq in Hk by auto. apply H1. eapply nth_error_In; eauto.
    + intros i ch Hi Hk. destruct (Nat.eq_dec i (start + n)) as [->|Hne].
      * rewrite upd_nth_eq in Hk by auto. inversion Hk; subst. auto.
      * rewrite upd_nth_neq in Hk by auto. eapply H2; eauto; lia.
Qed.

(** ** Invariant of reachable buffers *)
Definition binv (p : params) (b : buffer T) : Prop :=
  bpar b = p /\ Z.of_nat (length (bdec b)) = signum p /\
  forall ch, In ch (bdec b) -> untouched p ch \/ has_layout p ch.

Lemma binv_len p b ch : accepted p -> binv p b -> In ch (bdec b) -> length ch = decomposition_size p.
Proof.
  intros HA (_ & _ & H) Hin. rewrite dsize_bands by auto.
  destruct (H ch Hin) as [[]|[]]; auto.
Qed.

Lemma binv_step p b dec' data den start count r :
  accepted p -> Forall (fun n => (1 <= n)%Z) (shape p) -> keeps_shape den -> Forall mwf data ->
  binv p b ->
  decompose_impl p (bdec b) data den start count = Ok (r, dec') ->
  binv p (Buffer p dec').
Proof.
  intros HA Hpos Hden Hdata HI H.
  pose proof (decompose_impl_frame _ _ _ _ _ _ _ _ _ H) as (Hf & HL & HF).
  split; [reflexivity|]. cbn [bdec]. split.
  - rewrite HL. apply HI.
  - intros ch Hin. destruct r.
    + apply In_nth_error in Hin as (k & Hk).
      destruct (le_lt_dec start k) as [L1|L1]; [destruct (le_lt_dec (start + count) k) as [L2|L2]|].
      * rewrite HF in Hk by lia. apply HI. eapply nth_error_In; eauto.
      * right. eapply (decompose_impl_inv p (bdec b)); eauto. intros; eapply binv_len; eauto.
      * rewrite HF in Hk by lia. apply HI. eapply nth_error_In; eauto.
    + rewrite (Hf eq_refl) in Hin. apply HI; auto.
Qed.

Lemma binv_new p b : accepted p -> @new_buffer T p = Ok b -> binv p b.
Proof.
  intros HA H. pose proof HA as (Hr & Hl & Ht & _).
  rewrite new_buffer_legal in H by (auto; lia). inversion H; subst; clear H.
  split; [reflexivity|]. cbn [bdec]. split.
  - rewrite repeat_length. pose proof (acc_signum p HA). lia.
  - intros ch Hin. apply repeat_spec in Hin. subst ch. left. split.
    + rewrite repeat_length. apply dsize_bands; auto.
    + intros m Hm. apply repeat_spec in Hm. subst m. auto.
Qed.

Lemma reachable_inv p (b : buffer T) :
  accepted p -> Forall (fun n => (1 <= n)%Z) (shape p) -> reachable p b -> binv p b.
Proof.
  intros HA Hpos HR. induction HR.
  - apply binv_new; auto.
  - unfold decompose in H1. apply bind_ok in H1 as ([r' dec'] & H1 & H2). inversion H2; subst.
    pose proof IHHR as (-> & _). eapply binv_step; eauto. destruct IHHR as (E & _). rewrite E in H1. eauto.
  - unfold decompose1 in H0. apply bind_ok in H0 as ([r' dec'] & H0 & H2). inversion H2; subst.
    pose proof IHHR as (E & _). rewrite E in *. refine (binv_step p b dec' [mcolvec data] den 0 1 r HA Hpos H _ IHHR H0).
    apply Forall_cons; [apply mcolvec_wf|apply Forall_nil].
  - unfold view_decompose in H1. apply bind_ok in H1 as (ok & _ & H1).
    destruct ok; cbn [negb] in H1; [|inversion H1; subst; auto].
    apply bind_ok in H1 as (u & _ & H1).
    destruct (odd_range v).
    + apply bind_ok in H1 as (u2 & _ & H1). inversion H1; subst; auto.
    + apply bind_ok in H1 as ([r' dec'] & H1 & H2). inversion H2; subst.
      pose proof IHHR as (-> & _). eapply binv_step; eauto. destruct IHHR as (E & _). rewrite E in H1. eauto.
Qed.

End Frame.

(** ** Success: safety, layout, sizes of the output *)
Section Safe.
Context {T : Type} {A : Arith T}.
Variable p : params.
Hypothesis HA : accepted p.

Lemma shaped_mwf (data : list (mat T)) : Forall (shaped p) data -> Forall mwf data.
Proof. apply Forall_impl. intros m H. apply H. Qed.

Lemma com_of_sized k (ch : decomposition T) :
  sized (drows p / 2 ^ k) (if is_1d p then 1 else dcols p / 2 ^ k) (com_of p k ch).
Proof.
  unfold com_of, scalem, cropf. rewrite dim_1d.
  set (x := mk _ _ _).
  assert (HW : mwf x) by apply mk_wf.
  destruct (0 <? k).
  - unfold sized, mwf in *. cbn [rows cols elts]. rewrite map_length. auto.
  - split; auto.
Qed.

Lemma decompose_ok (b : buffer T) data den :
  bpar b = p -> Z.of_nat (length (bdec b)) = signum p ->
  (forall ch, In ch (bdec b) -> length ch = decomposition_size p) ->
  (1 <= signum p)%Z -> Z.of_nat (length data) = signum p -> Forall (shaped p) data ->
  (dimension p = 1 -> forall s l, length (den1 den l s) = length l) ->
  decompose b data den = Ok (true, Buffer p (map (dec_of p den) data)).
Proof.
  intros Ep HL Hlen Hsig Hd HS Hden. unfold decompose. rewrite Ep.
  rewrite decompose_impl_acc; auto; try lia.
  - cbn [bind fst snd]. rewrite firstn_O. rewrite firstn_all2 by lia. rewrite skipn_all2 by lia.
    rewrite app_nil_r. reflexivity.
  - intros i sub _ Hi. apply Hlen. eapply nth_error_In; eauto.
Qed.

Lemma compose_ok (b : buffer T) sf :
  bpar b = p -> Z.of_nat (length (bdec b)) = signum p ->
  (forall ch, In ch (bdec b) -> has_layout p ch) ->
  (0 <= sf <= steps p)%Z ->
  compose b sf = Ok (true, map (com_of p (Z.to_nat sf)) (bdec b)).
Proof.
  intros Ep HL HLay Hsf. unfold compose, scale_arg. destruct (Z.ltb_spec sf 0); [lia|]. cbn [bind].
  rewrite Ep. rewrite compose_impl_acc; auto.
  - rewrite skipn_O. rewrite firstn_all2 by lia. reflexivity.
  - rewrite <- geom_K by auto. lia.
  - lia.
  - intros i ch _ Hi. apply layout_iff; auto. apply HLay. eapply nth_error_In; eauto.
Qed.

Lemma dec_of_layout den (m : mat T) : keeps_shape den -> has_layout p (dec_of p den m).
Proof. intros. apply layout_iff; auto. apply dec_pure_layout. apply keeps_den; auto. Qed.

Lemma decompose_compose_safe (b : buffer T) data den :
  reachable p b -> Forall (fun n => (1 <= n)%Z) (shape p) -> keeps_shape den ->
  (1 <= signum p)%Z -> Z.of_nat (length data) = signum p -> Forall (shaped p) data ->
  exists b', decompose b data den = Ok (true, b') /\ bpar b' = p /\
    Z.of_nat (length (bdec b')) = signum p /\ Forall (has_layout p) (bdec b') /\
    forall sf, (0 <= sf <= steps p)%Z ->
      exists out, compose b' sf = Ok (true, out) /\ Z.of_nat (length out) = signum p /\
        Forall (sized (drows p / 2 ^ Z.to_nat sf)
                      (if is_1d p then 1 else dcols p / 2 ^ Z.to_nat sf)) out.
Proof.
  intros HR Hpos Hden Hsig HLd HS. pose proof (reachable_inv p b HA Hpos HR) as HI.
  pose proof HI as (Ep & HL & _).
  assert (HLay : Forall (has_layout p) (map (dec_of p den) data)).
  { apply Forall_forall. intros ch Hin. apply in_map_iff in Hin as (m & <- & _). apply dec_of_layout; auto. }
  eexists. split.
  { apply decompose_ok; auto. intros; eapply binv_len; eauto. intros _ s l. apply Hden. }
  cbn [bpar bdec]. split; [reflexivity|]. rewrite map_length. split; [auto|]. split; [auto|].
  intros sf Hsf. eexists. split.
  { apply compose_ok; cbn [bpar bdec]; auto; try (rewrite map_length; auto).
    rewrite Forall_forall in HLay. auto. }
  cbn [bdec]. rewrite !map_length. split; auto.
  apply Forall_forall. intros m Hin. apply in_map_iff in Hin as (ch & <- & _). apply com_of_sized.
Qed.

End Safe.
