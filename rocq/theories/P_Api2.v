(** * P_Api2: channels, views, pass-through, denoiser and emptiness. *)
Require Import List Bool Arith ZArith QArith Lia.
Require Import ZifyBool.
Require Import Verif.M_Base Verif.M_Params Verif.M_Padding Verif.M_Wavelet Verif.M_Buffer Verif.M_View.
Require Import Verif.S_Params Verif.S_Buffer Verif.P_Base Verif.P_Params Verif.P_Padding
  Verif.P_Wavelet Verif.P_Buffer Verif.P_Impl Verif.P_Api.
Import ListNotations.
Open Scope nat_scope.

Section Weak.
Context {T : Type} {A : Arith T}.

Lemma store_length (l : list (mat T)) : forall dec off dec',
  store dec off l = Ok dec' -> length dec' = length dec.
Proof.
  induction l as [|s l IH]; simpl; intros dec off dec' H; [inversion H; auto|].
  apply bind_ok in H as (d1 & H1 & H2). apply wr_ok in H1 as (_ & ->).
  rewrite (IH _ _ _ H2). apply upd_length.
Qed.

Lemma decompose_channel_length p den padded mats (dec dec' : decomposition T) data :
  decompose_channel p den padded mats dec data = Ok dec' -> length dec' = length dec.
Proof.
  unfold decompose_channel. intros H. apply bind_ok in H as (ch & _ & H).
  apply bind_ok in H as (st & HL & H). apply wr_ok in H as (_ & ->). rewrite upd_length.
  apply (loop_partial _ _ _ (fun _ st => length (fst st) = length dec)) in HL; auto.
  intros i s1 s2 _ H1 Hb. apply bind_ok in Hb as (wm & _ & Hb). apply bind_ok in Hb as (r & _ & Hb).
  apply bind_ok in Hb as (d & Hs & Hb). inversion Hb; subst. cbn [fst]. rewrite (store_length _ _ _ _ Hs). auto.
Qed.

Lemma decompose_impl_length (p : params) (dec dec' : ndecomposition T) data den start count r c :
  (forall ch, In ch dec -> length ch = c) ->
  decompose_impl p dec data den start count = Ok (r, dec') ->
  forall ch, In ch dec' -> length ch = c.
Proof.
  intros Hlen H. unfold decompose_impl, decompose_impl_gen in H.
  apply bind_ok in H as (ok & _ & H). destruct ok; cbn [negb] in H; [|inversion H; subst; auto].
  apply bind_ok in H as (padded & _ & H). apply bind_ok in H as (stack & _ & H).
  apply bind_ok in H as (dmat & _ & H). apply bind_ok in H as (dec1 & HL & H). inversion H; subst dec1; clear H.
  refine (loop_partial _ _ _ (fun _ d => forall ch, In ch d -> length ch = c) _ _ HL Hlen _).
  clear Hlen; intros i s1 s2 _ Hlen Hb.
  apply bind_ok in Hb as (d & _ & Hb). apply bind_ok in Hb as (sub & Hs & Hb).
  apply bind_ok in Hb as (sub' & Hc & Hb). apply wr_ok in Hb as (Hw & ->).
  intros ch Hin. apply In_nth_error in Hin as (k & Hk).
  destruct (Nat.eq_dec k (start + i)) as [->|Hne].
  - rewrite upd_nth_eq in Hk by auto. inversion Hk; subst.
    apply decompose_channel_length in Hc. rewrite Hc. apply Hlen. apply rd_ok in Hs. eapply nth_error_In; eauto.
  - rewrite upd_nth_neq in Hk by auto. apply Hlen. eapply nth_error_In; eauto.
Qed.

Definition weak_inv (p : params) (b : buffer T) : Prop :=
  bpar b = p /\ Z.of_nat (length (bdec b)) = signum p /\
  forall ch, In ch (bdec b) -> length ch = decomposition_size p.

Lemma weak_step p b dec' data den start count r :
  weak_inv p b -> decompose_impl p (bdec b) data den start count = Ok (r, dec') -> weak_inv p (Buffer p dec').
Proof.
  intros (E & HL & Hc) H. split; [reflexivity|]. cbn [bdec].
  pose proof (decompose_impl_frame _ _ _ _ _ _ _ _ _ H) as (_ & HL2 & _).
  split; [congruence|]. eapply decompose_impl_length; eauto.
Qed.

Lemma weak_new p b : accepted p -> @new_buffer T p = Ok b -> weak_inv p b.
Proof.
  intros HA H. pose proof (binv_new p b HA H) as HI.
  split; [apply HI|]. split; [apply HI|]. intros. eapply binv_len; eauto.
Qed.

Lemma reachable_weak p (b : buffer T) : accepted p -> reachable p b -> weak_inv p b.
Proof.
  intros HA HR. induction HR as [b H|b data den r b' HR IH Hd Hden H|b data den r b' HR IH Hden H
                                |b v data den r b' HR IH Hd Hden H].
  - apply weak_new; auto.
  - pose proof IH as (E & _). unfold decompose in H. rewrite E in H.
    apply bind_ok in H as ([r' dec'] & H1 & H2). inversion H2; subst. eapply weak_step; eauto.
  - pose proof IH as (E & _). unfold decompose1 in H. rewrite E in H.
    apply bind_ok in H as ([r' dec'] & H1 & H2). inversion H2; subst b' r. cbn [snd].
    refine (weak_step p b dec' _ _ _ _ _ IH H1).
  - pose proof IH as (E & _). unfold view_decompose in H. rewrite E in H.
    apply bind_ok in H as (ok & _ & H).
    destruct ok; cbn [negb] in H; [|inversion H; subst; auto].
    apply bind_ok in H as (u & _ & H). destruct (odd_range v).
    + apply bind_ok in H as (u2 & _ & H). inversion H; subst; auto.
    + apply bind_ok in H as ([r' dec'] & H1 & H2). inversion H2; subst. eapply weak_step; eauto.
Qed.
End Weak.

Lemma nth_error_Some_lt {X} (l : list X) i x : nth_error l i = Some x -> i < length l.
Proof. intros H. apply nth_error_Some. congruence. Qed.

Lemma upd_app' {X} (l1 : list X) x l2 a i : length l1 = i -> upd (l1 ++ x :: l2) i a = l1 ++ a :: l2.
Proof. intros <-. apply upd_app. Qed.

Section Api.
Context {T : Type} {A : Arith T}.

Lemma accepted_signum p n : accepted p -> (0 <= n < 2 ^ 64)%Z -> accepted (with_signum p n).
Proof.
  intros ((H1 & H2 & H3 & H4 & H5) & (L1 & L2 & L3) & H6 & H7) Hn.
  split; [split; [|split; [|split; [|split]]]|split; [split; [|split]|split]]; auto.
Qed.

Lemma safe_ok p (b : buffer T) data den :
  accepted p -> reachable p b -> keeps_shape den ->
  (1 <= signum p)%Z -> Z.of_nat (length data) = signum p -> Forall (shaped p) data ->
  decompose b data den = Ok (true, Buffer p (map (dec_of p den) data)).
Proof.
  intros HA HR Hden Hs HL HS. pose proof (reachable_weak p b HA HR) as (E & HL2 & Hc).
  apply decompose_ok; auto. intros _ s l. apply Hden.
Qed.

Lemma decompose_compose_safe' p (b : buffer T) data den :
  accepted p -> reachable p b -> keeps_shape den ->
  (1 <= signum p)%Z -> Z.of_nat (length data) = signum p -> Forall (shaped p) data ->
  exists b', decompose b data den = Ok (true, b') /\ bpar b' = p /\
    Z.of_nat (length (bdec b')) = signum p /\ Forall (has_layout p) (bdec b') /\
    forall sf, (0 <= sf <= steps p)%Z ->
      exists out, compose b' sf = Ok (true, out) /\ Z.of_nat (length out) = signum p /\
        Forall (sized (drows p / 2 ^ Z.to_nat sf)
                      (if is_1d p then 1 else dcols p / 2 ^ Z.to_nat sf)) out.
Proof.
  intros HA HR Hden Hsig HLd HS.
  assert (HLay : Forall (has_layout p) (map (dec_of p den) data)).
  { apply Forall_forall. intros ch Hin. apply in_map_iff in Hin as (m & <- & _). apply dec_of_layout; auto. }
  eexists. split; [apply (safe_ok p); auto|].
  cbn [bpar bdec]. split; [reflexivity|]. rewrite map_length. split; [auto|]. split; [auto|].
  intros sf Hsf. eexists. split.
  { apply (compose_ok p HA); cbn [bpar bdec]; auto; try (rewrite map_length; auto).
    rewrite Forall_forall in HLay. auto. }
  cbn [bdec]. rewrite !map_length. split; auto.
  apply Forall_forall. intros m Hin. apply in_map_iff in Hin as (ch & <- & _). apply com_of_sized.
Qed.

(** ** Independence of channels *)
Lemma dec_of_signum p n den (m : mat T) : dec_of (with_signum p n) den m = dec_of p den m.
Proof. reflexivity. Qed.
Lemma shaped_signum p n (m : mat T) : shaped (with_signum p n) m <-> shaped p m.
Proof. reflexivity. Qed.

Lemma single_channel p den (m : mat T) :
  accepted p -> keeps_shape den -> shaped p m ->
  exists b1, @new_buffer T (with_signum p 1) = Ok b1 /\
    decompose b1 [m] den = Ok (true, Buffer (with_signum p 1) [dec_of p den m]).
Proof.
  intros HA Hden HS. assert (HA1 : accepted (with_signum p 1)) by (apply accepted_signum; auto; lia).
  pose proof HA1 as (Hr & Hl & Ht & _). eexists. split; [apply new_buffer_legal; auto; lia|].
  apply (safe_ok (with_signum p 1)); auto; try (cbn [signum with_signum]; lia).
  apply reach_new. apply new_buffer_legal; auto; lia.
Qed.

Lemma channels_independent p (b b' : buffer T) data den i m :
  accepted p -> reachable p b -> keeps_shape den ->
  (1 <= signum p)%Z -> Z.of_nat (length data) = signum p -> Forall (shaped p) data ->
  decompose b data den = Ok (true, b') -> nth_error data i = Some m ->
  exists b1 b1' ch, @new_buffer T (with_signum p 1) = Ok b1 /\
    decompose b1 [m] den = Ok (true, b1') /\ bdec b1' = [ch] /\ nth_error (bdec b') i = Some ch.
Proof.
  intros HA HR Hden Hsig HL HS Hd Hi.
  rewrite (safe_ok p) in Hd by auto. inversion Hd; subst b'; clear Hd. cbn [bdec].
  assert (HSm : shaped p m). { rewrite Forall_forall in HS. apply HS. eapply nth_error_In; eauto. }
  destruct (single_channel p den m HA Hden HSm) as (b1 & H1 & H2).
  exists b1, (Buffer (with_signum p 1) [dec_of p den m]), (dec_of p den m). split; auto. split; auto. split; auto.
  rewrite nth_error_map, Hi. reflexivity.
Qed.

(** ** Refusal has no effect *)
Lemma decompose_false (b b' : buffer T) data den : decompose b data den = Ok (false, b') -> b' = b.
Proof.
  unfold decompose. intros H. apply bind_ok in H as ([r d] & H1 & H2). inversion H2; subst.
  apply decompose_impl_frame in H1 as (Hf & _). rewrite Hf by auto. destruct b; reflexivity.
Qed.
Lemma decompose1_false (b b' : buffer T) data den : decompose1 b data den = Ok (false, b') -> b' = b.
Proof.
  unfold decompose1. intros H. apply bind_ok in H as ([r d] & H1 & H2). inversion H2; subst.
  apply decompose_impl_frame in H1 as (Hf & _). rewrite Hf by auto. destruct b; reflexivity.
Qed.
Lemma view_false v (b b' : buffer T) data den : view_decompose v b data den = Ok (false, b') -> b' = b.
Proof.
  unfold view_decompose. intros H. apply bind_ok in H as (ok & _ & H).
  destruct ok; cbn [negb] in H; [|inversion H; auto].
  apply bind_ok in H as (u & _ & H). destruct (odd_range v).
  - apply bind_ok in H as (u2 & _ & H). inversion H; auto.
  - apply bind_ok in H as ([r d] & H1 & H2). inversion H2; subst.
    apply decompose_impl_frame in H1 as (Hf & _). rewrite Hf by auto. destruct b; reflexivity.
Qed.

(** ** Views *)
Lemma view_frame v (b b' : buffer T) data den r :
  view_decompose v b data den = Ok (r, b') ->
  bpar b' = bpar b /\ length (bdec b') = length (bdec b) /\
  forall i, (Z.of_nat i < vstart v \/ vstart v + vcount v <= Z.of_nat i)%Z ->
    nth_error (bdec b') i = nth_error (bdec b) i.
Proof.
  unfold view_decompose. intros H. apply bind_ok in H as (ok & _ & H).
  destruct ok; cbn [negb] in H; [|inversion H; auto].
  apply bind_ok in H as (u & _ & H). destruct (odd_range v) eqn:Eo.
  - apply bind_ok in H as (u2 & _ & H). inversion H; auto.
  - apply bind_ok in H as ([r' d] & H1 & H2). inversion H2; subst. cbn [bpar bdec snd].
    apply decompose_impl_frame in H1 as (_ & HL & HF). split; auto. split; auto.
    intros i Hi. apply HF. unfold odd_range in Eo. lia.
Qed.

Lemma check_range_in v (b : buffer T) : in_range v (bpar b) -> check_range v b = Ok true.
Proof.
  intros (H1 & H2 & H3 & H4). unfold check_range. rewrite guard_true by lia. cbn [bind].
  unfold wrap64. rewrite Z.mod_small by lia. f_equal. lia.
Qed.
Lemma odd_in v p : in_range v p -> odd_range v = false.
Proof. unfold in_range, odd_range. lia. Qed.

Lemma nth_error_firstn {X} (l : list X) c i : i < c -> nth_error (firstn c l) i = nth_error l i.
Proof.
  revert c i; induction l as [|a l IH]; intros [|c] [|i] H; simpl; try reflexivity; try lia. apply IH. lia.
Qed.

Lemma firstn_skipn_nth {X} (l : list X) s c i : i < c -> nth_error (firstn c (skipn s l)) i = nth_error l (s + i).
Proof.
  intros. rewrite nth_error_firstn by auto.
  revert l; induction s; intros l; [reflexivity|].
  destruct l; simpl; [destruct i; reflexivity|]. apply IHs.
Qed.

Lemma list_nth_ext {X} (l l' : list X) : (forall i, nth_error l i = nth_error l' i) -> l = l'.
Proof.
  revert l'; induction l as [|a l IH]; intros [|a' l'] H; auto.
  - specialize (H 0); discriminate.
  - specialize (H 0); discriminate.
  - f_equal; [specialize (H 0); inversion H; auto|]. apply IH. intros i. apply (H (S i)).
Qed.

Lemma view_writes p v (b : buffer T) data den :
  accepted p -> reachable p b -> keeps_shape den -> in_range v p -> vmutable v = true ->
  (1 <= vcount v)%Z -> Z.of_nat (length data) = vcount v -> Forall (shaped p) data ->
  exists b' bs bs',
    view_decompose v b data den = Ok (true, b') /\
    @new_buffer T (with_signum p (vcount v)) = Ok bs /\
    decompose bs data den = Ok (true, bs') /\
    length (bdec bs') = Z.to_nat (vcount v) /\
    forall i, i < Z.to_nat (vcount v) ->
      nth_error (bdec b') (Z.to_nat (vstart v) + i) = nth_error (bdec bs') i.
Proof.
  intros HA HR Hden HV Hmut Hc HL HS.
  pose proof (reachable_weak p b HA HR) as (E & HL2 & Hlen).
  pose proof HV as (V1 & V2 & V3 & V4).
  assert (HA1 : accepted (with_signum p (vcount v))) by (apply accepted_signum; auto; lia).
  pose proof HA1 as (Hr & Hl & Ht & _).
  assert (Hnb := new_buffer_legal (T:=T) (with_signum p (vcount v)) Hr ltac:(lia) Hl).
  eexists. eexists. eexists. split; [|split; [exact Hnb|split]].
  - unfold view_decompose. rewrite check_range_in by (rewrite E; auto). cbn [bind negb].
    rewrite guard_true by auto. cbn [bind]. rewrite (odd_in v p) by auto. rewrite E.
    rewrite decompose_impl_acc; auto; try lia.
    + cbn [bind]. reflexivity.
    + intros _ s l. apply Hden.
    + intros i sub _ Hi. apply Hlen. eapply nth_error_In; eauto.
  - apply (safe_ok (with_signum p (vcount v))); auto; try (cbn [signum with_signum]; lia).
    apply reach_new. auto.
  - cbn [bdec fst snd]. split; [rewrite map_length; lia|].
    intros i Hi. rewrite (firstn_all2 data) by lia.
    rewrite nth_error_app2; rewrite firstn_length; [|lia].
    replace (Z.to_nat (vstart v) + i - Nat.min (Z.to_nat (vstart v)) (length (bdec b))) with i by lia.
    rewrite nth_error_app1 by (rewrite map_length; lia). reflexivity.
Qed.

Lemma compose_impl_slice p (dec : ndecomposition T) k n start count out :
  start + count <= n ->
  compose_impl p dec k 0 n = Ok (true, out) ->
  compose_impl p dec k start count = Ok (true, firstn count (skipn start out)).
Proof.
  intros Hle H. unfold compose_impl, compose_impl_gen, compose_partial_gen in *.
  apply bind_ok in H as (subs & H1 & H).
  apply bind_ok in H1 as (stack & Es & H1). rewrite Es. cbn [bind].
  apply bind_ok in H1 as (dmat & Ed & H1). rewrite Ed. cbn [bind].
  apply tabulateM_inv in H1 as (HL & H1).
  apply bind_ok in H as (data & H2 & H). inversion H; subst data; clear H.
  apply mapM_inv in H2.
  erewrite tabulateM_ext with (g := fun i => match nth_error subs (start + i) with Some x => Ok x | None => UB end).
  2:{ intros i Hi. destruct (nth_error subs (start + i)) as [x|] eqn:Ex.
      - pose proof (H1 (start + i) x Ex) as Hx. rewrite Nat.add_0_l in Hx. exact Hx.
      - apply nth_error_None in Ex. lia. }
  assert (Et : tabulateM count (fun i => match nth_error subs (start + i) with Some x => Ok x | None => UB end)
               = Ok (firstn count (skipn start subs))).
  { rewrite (tabulateM_ok _ _ (fun i => nth (start + i) subs [])).
    - f_equal. apply list_nth_ext. intros i. destruct (lt_dec i count) as [Hi|Hi].
      + rewrite nth_error_map_seq by auto. rewrite firstn_skipn_nth by auto.
        symmetry. apply nth_error_nth'. lia.
      + transitivity (@None (decomposition T)); [|symmetry]; apply nth_error_None.
        * rewrite map_length, seq_length. lia.
        * rewrite firstn_length. lia.
    - intros i Hi. rewrite (nth_error_nth' subs []) by lia. reflexivity. }
  rewrite Et. cbn [bind].
  assert (Em : forall f : decomposition T -> res (mat T), Forall2 (fun a b => f a = Ok b) subs out ->
           mapM f (firstn count (skipn start subs)) = Ok (firstn count (skipn start out))).
  { intros f HF. clear - HF.
    assert (HG : Forall2 (fun a b => f a = Ok b) (firstn count (skipn start subs)) (firstn count (skipn start out))).
    { revert start. induction HF as [|a b l l' Hab HF IH]; intros start.
      - rewrite !skipn_nil, !firstn_nil. constructor.
      - destruct start; cbn [skipn]; [|apply IH].
        destruct count as [|c]; cbn [firstn]; constructor; auto.
        clear - HF. revert c. induction HF; intros [|c]; cbn [firstn]; constructor; auto. }
    induction HG as [|a b l l' Hab HG IH]; [reflexivity|]. cbn [mapM]. rewrite Hab. cbn [bind]. rewrite IH. reflexivity. }
  erewrite Em; [reflexivity|exact H2].
Qed.

Lemma compose_impl_true p (dec : ndecomposition T) k s c r out :
  compose_impl p dec k s c = Ok (r, out) -> r = true.
Proof.
  unfold compose_impl, compose_impl_gen. intros H.
  apply bind_ok in H as (? & _ & H). apply bind_ok in H as (? & _ & H). inversion H; auto.
Qed.

Lemma view_compose_slice v (b : buffer T) sf r out :
  in_range v (bpar b) -> compose b sf = Ok (r, out) ->
  r = true /\
  view_compose v b sf = Ok (true, Some (firstn (Z.to_nat (vcount v)) (skipn (Z.to_nat (vstart v)) out))).
Proof.
  intros HV H. unfold compose in H. apply bind_ok in H as (k & Hk & H).
  pose proof (compose_impl_true _ _ _ _ _ _ _ H) as ->. split; auto.
  unfold view_compose. rewrite check_range_in by auto. cbn [bind negb]. rewrite Hk. cbn [bind].
  destruct HV as (V1 & V2 & V3 & V4).
  destruct (Z.ltb_spec (vcount v) 0); [lia|]. destruct (Z.ltb_spec (vstart v) 0); [lia|]. cbn [andb].
  erewrite compose_impl_slice; [|idtac|exact H]; [reflexivity|]. lia.
Qed.

(** a view composes whenever its own channels are decomposed *)
Lemma view_compose_ok p v (b : buffer T) sf :
  accepted p -> bpar b = p -> in_range v p -> Z.of_nat (length (bdec b)) = signum p ->
  (0 <= sf <= steps p)%Z ->
  (forall i ch, (vstart v <= Z.of_nat i < vstart v + vcount v)%Z -> nth_error (bdec b) i = Some ch -> has_layout p ch) ->
  exists out, view_compose v b sf = Ok (true, Some out) /\ Z.of_nat (length out) = vcount v.
Proof.
  intros HA E HV HL Hsf HLay. eexists. split.
  - unfold view_compose. rewrite check_range_in by (rewrite E; auto). cbn [bind negb].
    unfold scale_arg. destruct (Z.ltb_spec sf 0); [lia|]. cbn [bind].
    pose proof HV as (V1 & V2 & V3 & V4).
    destruct (Z.ltb_spec (vcount v) 0); [lia|]. destruct (Z.ltb_spec (vstart v) 0); [lia|]. cbn [andb].
    rewrite E. rewrite compose_impl_acc; auto.
    + reflexivity.
    + rewrite <- geom_K by auto. lia.
    + lia.
    + intros i ch Hi Hch. apply layout_iff; auto. eapply HLay; eauto. lia.
  - pose proof HV as (V1 & V2 & V3 & V4).
    cbn [snd]; rewrite map_length, firstn_length, skipn_length. lia.
Qed.

Lemma view_cast_ok p v (b : buffer T) :
  accepted p -> bpar b = p -> Z.of_nat (length (bdec b)) = signum p -> in_range v p ->
  view_cast v b = Ok (Buffer (with_signum p (vcount v))
                       (firstn (Z.to_nat (vcount v)) (skipn (Z.to_nat (vstart v)) (bdec b)))).
Proof.
  intros HA E HL HV. pose proof HV as (V1 & V2 & V3 & V4).
  assert (HA1 : accepted (with_signum p (vcount v))) by (apply accepted_signum; auto; lia).
  pose proof HA1 as (Hr & Hl & Ht & _).
  unfold view_cast. destruct (Z.ltb_spec (vcount v) 0); [lia|]. rewrite E.
  change (Params (shape p) (vcount v) (steps p) (wtype p)) with (with_signum p (vcount v)).
  rewrite new_buffer_legal by (auto; lia). cbn [bind bpar bdec].
  set (n := Z.to_nat (vcount v)). set (s := Z.to_nat (vstart v)).
  set (e := repeat mempty (decomposition_size (with_signum p (vcount v)))).
  change (Z.to_nat (signum (with_signum p (vcount v)))) with n.
  match goal with |- context [loop n 0 ?f ?s0] => 
    set (body := f); destruct (loop_inv n 0 body
    (fun i d => d = firstn i (skipn s (bdec b)) ++ repeat e (n - i)) s0) as (d & Hd & HI) end.
  - rewrite Nat.sub_0_r. reflexivity.
  - intros i d Hi ->. unfold body. cbn zeta. rewrite Nat.add_0_l.
    destruct (Z.ltb_spec (Z.of_nat i + vstart v) 0); [lia|].
    replace (Z.to_nat (Z.of_nat i + vstart v)) with (s + i) by (unfold s; lia).
    rewrite (rd_nth (bdec b) (s + i) []) by (unfold s, n in *; lia). cbn [bind].
    assert (Hfl : length (firstn i (skipn s (bdec b))) = i)
      by (rewrite firstn_length, skipn_length; unfold s, n in *; lia).
    replace (n - i) with (S (n - S i)) by lia. cbn [repeat].
    rewrite wr_lt by (rewrite app_length, Hfl; cbn [length]; lia).
    eexists. split; [reflexivity|].
    rewrite upd_app' by auto. clear Hfl. change (?a :: ?b) with ([a] ++ b). rewrite app_assoc. f_equal.
    assert (Ei : nth_error (skipn s (bdec b)) i = Some (nth (s + i) (bdec b) [])).
    { rewrite <- (nth_error_firstn (skipn s (bdec b)) (S i)) by lia.
      rewrite firstn_skipn_nth by lia. apply nth_error_nth'. unfold s, n in *; lia. }
    clear - Ei. revert Ei. generalize (skipn s (bdec b)). generalize (nth (s + i) (bdec b) []).
    induction i; intros x [|y l] H; simpl in *; try discriminate.
    + inversion H; reflexivity.
    + f_equal. auto.
  - rewrite Hd. cbn [bind]. rewrite HI, Nat.sub_diag. cbn [repeat]. rewrite app_nil_r.
    reflexivity.
Qed.

Lemma compose_impl_shift p (dec : ndecomposition T) k start count n :
  start + count <= length dec ->
  compose_impl (with_signum p n) (firstn count (skipn start dec)) k 0 count =
  compose_impl p dec k start count.
Proof.
  intros Hle.
  transitivity (compose_impl p (firstn count (skipn start dec)) k 0 count); [reflexivity|].
  unfold compose_impl, compose_impl_gen, compose_partial_gen.
  destruct (if dimension p =? 2 then
       let* padded := calc_padded (wtype p) (shape p) (steps p) in gen_trans_matrices (T:=T) padded p
      else Ok []) as [stack| |]; cbn [bind]; auto.
  destruct (synthesis_mat (wtype p)) as [dmat| |]; cbn [bind]; auto.
  erewrite tabulateM_ext; [reflexivity|].
  intros i Hi. cbn beta. rewrite Nat.add_0_l.
  unfold rd at 1. rewrite firstn_skipn_nth by auto. reflexivity.
Qed.

Lemma cast_compose p v (b bc : buffer T) sf :
  accepted p -> bpar b = p -> Z.of_nat (length (bdec b)) = signum p -> in_range v p ->
  view_cast v b = Ok bc ->
  view_compose v b sf = let* r := compose bc sf in Ok (fst r, Some (snd r)).
Proof.
  intros HA E HL HV HC. rewrite (view_cast_ok p) in HC by auto. inversion HC; subst bc; clear HC.
  pose proof HV as (V1 & V2 & V3 & V4).
  unfold view_compose, compose. rewrite check_range_in by (rewrite E; auto). cbn [bind negb].
  destruct (scale_arg sf); cbn [bind]; auto.
  destruct (Z.ltb_spec (vcount v) 0); [lia|]. destruct (Z.ltb_spec (vstart v) 0); [lia|]. cbn [andb].
  cbn [bpar bdec]. change (signum (with_signum p (vcount v))) with (vcount v).
  rewrite compose_impl_shift by lia. rewrite E. reflexivity.
Qed.

(** out of range *)
Lemma view_out_of_range v (b : buffer T) :
  (- 2 ^ 31 <= vstart v + vcount v < 2 ^ 31)%Z ->
  (0 <= signum (bpar b) < 2 ^ 63)%Z ->
  (signum (bpar b) < vstart v + vcount v \/ vstart v + vcount v < 0)%Z ->
  (forall data den, view_decompose v b data den = Ok (false, b)) /\
  (forall sf, view_compose v b sf = Ok (false, None)).
Proof.
  intros Hi Hs H.
  assert (Ec : check_range v b = Ok false).
  { unfold check_range. rewrite guard_true by lia. cbn [bind]. f_equal.
    unfold wrap64. destruct (Z.ltb_spec (vstart v + vcount v) 0).
    - rewrite <- (Z.mod_add _ 1) by lia. rewrite Z.mod_small by lia. lia.
    - rewrite Z.mod_small by lia. lia. }
  split; intros; unfold view_decompose, view_compose; rewrite Ec; reflexivity.
Qed.

Lemma cast_out_of_range p v (b : buffer T) :
  accepted p -> bpar b = p -> Z.of_nat (length (bdec b)) = signum p ->
  (1 <= vcount v < 2 ^ 31)%Z ->
  (vstart v < 0 \/ signum p < vstart v + vcount v)%Z ->
  view_cast v b = UB.
Proof.
  intros HA E HL Hc H.
  assert (HA1 : accepted (with_signum p (vcount v))) by (apply accepted_signum; auto; lia).
  pose proof HA1 as (Hr & Hl & Ht & _).
  unfold view_cast. destruct (Z.ltb_spec (vcount v) 0); [lia|]. rewrite E.
  change (Params (shape p) (vcount v) (steps p) (wtype p)) with (with_signum p (vcount v)).
  rewrite new_buffer_legal by (auto; lia). cbn [bind bpar bdec].
  set (n := Z.to_nat (vcount v)).
  set (e := repeat mempty (decomposition_size (with_signum p (vcount v)))).
  change (Z.to_nat (signum (with_signum p (vcount v)))) with n.
  match goal with |- context [loop n 0 ?f _] => set (body := f) end.
  (* the loop reaches an index that is out of range *)
  assert (G : forall m i d, length d = n -> i + m = n ->
     ((exists j, i <= j < n /\ (Z.of_nat j + vstart v < 0 \/ signum p <= Z.of_nat j + vstart v)%Z)) ->
     loop m i body d = UB).
  { induction m as [|m IH]; intros i d HLd Hi (j & Hj & Hbad); [lia|].
    cbn [loop]. unfold body at 1. cbn zeta.
    destruct (Z.ltb_spec (Z.of_nat i + vstart v) 0) as [Hn|Hn]; [reflexivity|].
    destruct (rd (bdec b) (Z.to_nat (Z.of_nat i + vstart v))) as [src| |] eqn:Er; cbn [bind]; auto.
    2:{ exfalso; eapply rd_not_throw; eauto. }
    rewrite wr_lt by lia. cbn [bind]. apply IH; [rewrite upd_length; auto|lia|].
    exists j. split; [|auto]. destruct (Nat.eq_dec i j) as [->|]; [|lia].
    apply rd_ok_lt in Er. lia. }
  rewrite G; [reflexivity|apply repeat_length|lia|].
  destruct H as [H|H].
  - exists 0. lia.
  - exists (n - 1). unfold n. lia.
Qed.

(** negative start: Decompose says true and does nothing, Compose is UB *)
Lemma view_negative_start v (b : buffer T) :
  (vstart v < 0)%Z -> (0 < vcount v)%Z -> (0 <= vstart v + vcount v <= signum (bpar b))%Z ->
  (vstart v + vcount v < 2 ^ 31)%Z ->
  (forall data den r b', view_decompose v b data den = Ok (r, b') -> b' = b) /\
  (forall sf, (0 <= sf)%Z -> view_compose v b sf = UB).
Proof.
  intros Hs Hc Hsum Hi.
  assert (Ec : check_range v b = Ok true).
  { unfold check_range. rewrite guard_true by lia. cbn [bind]. f_equal.
    unfold wrap64. rewrite Z.mod_small by lia. lia. }
  split.
  - intros data den r b' H. unfold view_decompose in H. rewrite Ec in H. cbn [bind negb] in H.
    apply bind_ok in H as (u & _ & H). unfold odd_range in H.
    destruct (Z.ltb_spec (vstart v) 0); [|lia]. cbn [orb] in H.
    apply bind_ok in H as (u2 & _ & H). inversion H; auto.
  - intros sf Hsf. unfold view_compose. rewrite Ec. cbn [bind negb]. unfold scale_arg.
    destruct (Z.ltb_spec sf 0); [lia|]. cbn [bind].
    destruct (Z.ltb_spec (vcount v) 0); [lia|]. destruct (Z.ltb_spec (vstart v) 0); [|lia].
    destruct (Z.ltb_spec 0 (vcount v)); [|lia]. reflexivity.
Qed.

(** ** Pass-through *)
Lemma acc_0_shape p : accepted p -> steps p = 0%Z -> hs (geom_of p) 0 = drows p /\ ws (geom_of p) 0 = dcols p.
Proof.
  intros HA Hs. rewrite hs_level, ws_level by auto. unfold level_rows, level_cols, round_up, nsteps, is_1d.
  rewrite Hs. simpl Z.to_nat. rewrite Nat.pow_0_r, !Nat.div_1_r, !Nat.mul_1_l. split; [lia|].
  destruct (length (shape p) =? 1) eqn:E; [|lia].
  unfold dcols. destruct (acc_cases p HA) as [(n & E2 & _)|(w & h & E2 & _)]; rewrite E2 in *; auto. discriminate.
Qed.

Lemma mat_eta' (m : mat T) d : mwf m -> mk (rows m) (cols m) (mel d m) = m.
Proof. intros. symmetry. apply mat_eta; auto. Qed.

Lemma dec_of_0 p den (m : mat T) : accepted p -> steps p = 0%Z -> shaped p m -> dec_of p den m = [m].
Proof.
  intros HA Hs (W & R & C). unfold dec_of, dec_pure. rewrite <- geom_K by auto. rewrite Hs. simpl Z.to_nat. simpl flat_map.
  rewrite app_nil_l. f_equal.
  assert (HS : shaped p m) by (repeat split; auto).
  pose proof (acc_0_shape p HA Hs) as (E1 & E2).
  pose proof (add_padding_acc p HA m HS) as HP.
  (* padding to the same size is the identity *)
  rewrite apm_0 by auto.
  assert (Eh : gh (geom_of p) = rows m).
  { rewrite R, <- E1. unfold hs. rewrite Nat.pow_0_r, Nat.div_1_r. reflexivity. }
  assert (Ew : gw (geom_of p) = cols m).
  { rewrite C, <- E2. rewrite ws_0 by (apply geom_wf; auto). reflexivity. }
  rewrite Eh, Ew. rewrite <- (mat_eta' m a0 W) at 4.
  apply mk_ext. intros i j Hi Hj. unfold padf. rewrite Eh, Ew, <- R, <- C, !Nat.sub_diag.
  change (0 / 2) with 0. f_equal; lia.
Qed.

Lemma compose_0 p (m : mat T) : accepted p -> steps p = 0%Z -> shaped p m -> com_of p 0 [m] = m.
Proof.
  intros HA Hs (W & R & C). unfold com_of. rewrite Nat.sub_0_r.
  pose proof (acc_0_shape p HA Hs) as (E1 & E2).
  assert (EK : gK (geom_of p) = 0) by (rewrite <- geom_K by auto; rewrite Hs; reflexivity).
  rewrite EK. cbn [rc]. rewrite EK. rewrite Nat.mul_0_l. unfold chf. cbn [nth].
  unfold scalem, cropf. cbn [Nat.ltb Nat.leb]. rewrite E1, E2, Nat.pow_0_r, !Nat.div_1_r.
  replace (if dimension p =? 1 then 1 else dcols p) with (dcols p).
  2:{ unfold dimension, dcols. destruct (acc_cases p HA) as [(n & E & _)|(w & h & E & _)]; rewrite E; auto. }
  rewrite !Nat.sub_diag. change (0 / 2) with 0. rewrite <- R, <- C. apply mat_eta'; auto.
Qed.

Lemma pass_through p (b : buffer T) data den :
  accepted p -> steps p = 0%Z -> reachable p b -> keeps_shape den ->
  (1 <= signum p)%Z -> Z.of_nat (length data) = signum p -> Forall (shaped p) data ->
  exists b', decompose b data den = Ok (true, b') /\ bpar b' = p /\
    bdec b' = map (fun m => [m]) data /\ compose b' 0 = Ok (true, data).
Proof.
  intros HA Hs HR Hden Hsig HL HS.
  assert (E : map (dec_of p den) data = map (fun m => [m]) data).
  { apply map_ext_in. intros m Hin. apply dec_of_0; auto. rewrite Forall_forall in HS; auto. }
  eexists. split; [apply (safe_ok p); auto|]. cbn [bpar bdec]. split; [reflexivity|]. split; [auto|].
  rewrite (compose_ok p HA); cbn [bpar bdec]; auto; try lia.
  - f_equal. f_equal. rewrite E, map_map. rewrite <- (map_id data) at 2. apply map_ext_in.
    intros m Hin. apply compose_0; auto. rewrite Forall_forall in HS; auto.
  - rewrite map_length. auto.
  - intros ch Hin. apply in_map_iff in Hin as (m & <- & _). apply dec_of_layout; auto.
Qed.

(** ** Denoiser and approximation *)
Lemma den_details p (m : mat T) den : accepted p ->
  nth_error (dec_of p den m) (nsteps p * bands p) = nth_error (dec_of p null_denoiser m) (nsteps p * bands p) /\
  forall s i, s < nsteps p -> i < bands p -> exists d,
    nth_error (dec_of p null_denoiser m) (s * bands p + i) = Some d /\
    nth_error (dec_of p den m) (s * bands p + i) = Some (denoised p den s d).
Proof.
  intros HA. rewrite <- spw_bands, <- K_nsteps by auto. unfold dec_of. split.
  - rewrite !dec_pure_nth_approx. reflexivity.
  - intros s i Hs Hi. rewrite !dec_pure_nth_detail by auto.
    destruct (nth_error (detf (geom_of p) (padf p m) s) i) as [d|] eqn:Ed.
    2:{ apply nth_error_None in Ed. unfold detf in Ed. rewrite ana_d_length in Ed. unfold gspw in Hi. lia. }
    cbn [option_map]. eexists. split; [reflexivity|]. f_equal.
    unfold denoised, den_apply. rewrite dim_1d, geom_dim by auto.
    destruct (gdim (geom_of p) =? 1) eqn:E1; [|reflexivity].
    unfold null_denoiser; cbn [den1]. unfold mcolvec. cbn [elts]. reflexivity.
Qed.

(** any denoiser: a 1D denoiser that changes the length makes Decompose throw *)
Definition den_patch (den : denoiser T) : denoiser T :=
  Denoiser (fun l s => if length (den1 den l s) =? length l then den1 den l s else l) (den2 den).

Lemma den_patch_len den l s : length (den1 (den_patch den) l s) = length l.
Proof. cbn [den1 den_patch]. destruct (Nat.eqb_spec (length (den1 den l s)) (length l)); auto. Qed.

Lemma one_side_step_patch dim den wm (sig : mat T) s r :
  one_side_step dim den wm sig s = Ok r -> one_side_step dim (den_patch den) wm sig s = Ok r.
Proof.
  unfold one_side_step. destruct (dim =? 1); auto.
  unfold one_side_step_1d. intros H.
  apply bind_ok in H as (v & H1 & H). rewrite H1. cbn [bind].
  apply bind_ok in H as (w & H2 & H). rewrite H2. cbn [bind].
  apply bind_ok in H as (lh & H3 & H). rewrite H3. cbn [bind]. cbn zeta in *.
  apply bind_ok in H as (u & H4 & H). pose proof (check_ok _ _ H4) as H5.
  cbn [den1 den_patch]. rewrite H5. rewrite H5. cbn [check bind]. auto.
Qed.

Lemma loop_mono {S} n (f g : nat -> S -> res S) : forall start s r,
  (forall i s r, f i s = Ok r -> g i s = Ok r) -> loop n start f s = Ok r -> loop n start g s = Ok r.
Proof.
  induction n as [|n IH]; intros start s r H HL; [exact HL|].
  cbn [loop] in *. apply bind_ok in HL as (s1 & H1 & H2). rewrite (H _ _ _ H1). cbn [bind]. eauto.
Qed.

Lemma decompose_channel_patch p den padded mats (dec dec' : decomposition T) data :
  decompose_channel p den padded mats dec data = Ok dec' ->
  decompose_channel p (den_patch den) padded mats dec data = Ok dec'.
Proof.
  unfold decompose_channel. intros H. apply bind_ok in H as (ch & H1 & H). rewrite H1. cbn [bind].
  apply bind_ok in H as (st & HL & H).
  erewrite (loop_mono _ _ _ _ _ st); [cbn [bind]; exact H| |exact HL].
  intros i s r Hb. cbn beta in *.
  apply bind_ok in Hb as (wm & E1 & Hb). rewrite E1. cbn [bind].
  apply bind_ok in Hb as (q & E2 & Hb). rewrite (one_side_step_patch _ _ _ _ _ _ E2). cbn [bind]. exact Hb.
Qed.

Lemma decompose_impl_patch p (dec : ndecomposition T) data den start count r :
  decompose_impl p dec data den start count = Ok r ->
  decompose_impl p dec data (den_patch den) start count = Ok r.
Proof.
  unfold decompose_impl, decompose_impl_gen. intros H.
  apply bind_ok in H as (ok & E & H). rewrite E. cbn [bind]. destruct ok; cbn [negb] in *; auto.
  apply bind_ok in H as (pd & E1 & H). rewrite E1. cbn [bind].
  apply bind_ok in H as (st & E2 & H). rewrite E2. cbn [bind].
  apply bind_ok in H as (dm & E3 & H). rewrite E3. cbn [bind]. cbn zeta in *.
  apply bind_ok in H as (d' & HL & H).
  erewrite (loop_mono _ _ _ _ _ d'); [cbn [bind]; exact H| |exact HL].
  intros i s r' Hb. cbn beta in *.
  apply bind_ok in Hb as (d & G1 & Hb). rewrite G1. cbn [bind].
  apply bind_ok in Hb as (sub & G2 & Hb). rewrite G2. cbn [bind].
  apply bind_ok in Hb as (sub' & G3 & Hb). rewrite (decompose_channel_patch _ _ _ _ _ _ _ G3). cbn [bind]. exact Hb.
Qed.

(** if it succeeds, the denoiser kept the length of every 1D detail *)
Definition den_len_ok (g : geom) den (x : nat -> nat -> T) : Prop :=
  gdim g = 1 -> forall s m, s < gK g -> In m (detm g x s) -> length (den1 den (elts m) s) = length (elts m).

Lemma one_side_step_len den wm (sig : mat T) s r r0 :
  one_side_step 1 den wm sig s = Ok r ->
  one_side_step 1 null_denoiser wm sig s = Ok r0 ->
  snd r = snd r0 /\ (forall m, In m (fst r0) -> length (den1 den (elts m) s) = length (elts m)).
Proof.
  unfold one_side_step. cbn [Nat.eqb]. unfold one_side_step_1d. intros H H0.
  apply bind_ok in H as (v & H1 & H). rewrite H1 in H0. cbn [bind] in H0.
  apply bind_ok in H as (w & H2 & H). rewrite H2 in H0. cbn [bind] in H0.
  apply bind_ok in H as (lh & H3 & H). rewrite H3 in H0. cbn [bind] in H0. cbn zeta in *.
  apply bind_ok in H as (u & H4 & H). pose proof (check_ok _ _ H4) as H5. apply Nat.eqb_eq in H5.
  apply bind_ok in H0 as (u0 & _ & H0). inversion H; inversion H0; subst. cbn [fst snd].
  split; [reflexivity|]. intros m [<-|[]]. cbn [null_denoiser den1]. exact H5.
Qed.

Lemma decompose_channel_len p g den padded mats x (dec dec' : decomposition T) data :
  gwf g -> mats_ok g mats -> dimension p = gdim g -> Z.to_nat (steps p) = gK g -> spw p = gspw g ->
  add_padding data padded = Ok (apm g x 0) ->
  decompose_channel p den padded mats dec data = Ok dec' -> den_len_ok g den x.
Proof.
  intros G HM Ed Es Ew Hpad H. unfold decompose_channel in H. rewrite Hpad in H. cbn [bind] in H.
  rewrite Ed, Es, Ew in H. intros E1. rewrite E1 in H.
  apply bind_ok in H as (st & HL & _).
  apply (loop_partial _ _ _ (fun n st => n <= gK g -> snd st = apm g x n /\
     forall s m, s < n -> In m (detm g x s) -> length (den1 den (elts m) s) = length (elts m))) in HL.
  - intros s m Hs Hm. destruct HL as (_ & HL2). apply (HL2 s m); auto.
  - intros _. split; [reflexivity|]. intros; lia.
  - intros i s1 s2 Hi HI Hb Hle. destruct HI as (HI1 & HI2); [lia|]. rewrite Nat.add_0_l in Hb.
    apply bind_ok in Hb as (wm & E2 & Hb). apply bind_ok in Hb as (q & E3 & Hb).
    apply bind_ok in Hb as (d & _ & Hb). inversion Hb; subst s2; clear Hb. cbn [snd].
    rewrite HI1 in E3.
    pose proof (one_side_step_ok g null_denoiser mats x i wm G ltac:(lia) HM E2 (fun _ l => eq_refl)) as E4.
    rewrite E1 in E4.
    destruct (one_side_step_len _ _ _ _ _ _ E3 E4) as (H5 & H6). cbn [snd fst] in *.
    split; [auto|]. intros s m Hs Hm. destruct (Nat.eq_dec s i) as [->|]; [|eapply HI2; eauto; lia].
    specialize (H6 (den_apply 1 null_denoiser m i) (in_map _ _ _ Hm)).
    unfold den_apply in H6. cbn [Nat.eqb null_denoiser den1 mcolvec elts] in H6. exact H6.
  - lia.
Qed.

Lemma decompose_impl_len p (dec : ndecomposition T) data den start count dec' :
  accepted p -> Forall (shaped p) data ->
  decompose_impl p dec data den start count = Ok (true, dec') ->
  forall i m, i < count -> nth_error data i = Some m -> den_len_ok (geom_of p) den (padf p m).
Proof.
  intros HA HS H. unfold decompose_impl, decompose_impl_gen in H.
  apply bind_ok in H as (ok & _ & H). destruct ok; cbn [negb] in H; [|discriminate].
  rewrite calc_padded_acc in H by auto. cbn [bind] in H.
  destruct (mats_acc p HA (T:=T)) as (stack & Es & HM). rewrite Es in H. cbn [bind] in H.
  rewrite analysis_mat_acc in H by auto. cbn [bind] in H.
  fold (mats_of p stack (filter_mat (T:=T) (lo_r (wtype p)) (hi_r (wtype p)))) in H.
  apply bind_ok in H as (dec1 & HL & H). clear H.
  refine (loop_partial _ _ _ (fun n d => forall i m, i < n -> nth_error data i = Some m ->
     den_len_ok (geom_of p) den (padf p m)) _ _ HL _ _).
  - intros; lia.
  - intros n s1 s2 Hn HI Hb i m Hi Hm.
    destruct (Nat.eq_dec i n) as [->|]; [|eapply HI; eauto; lia].
    apply bind_ok in Hb as (d & Hd & Hb). apply bind_ok in Hb as (sub & _ & Hb).
    apply bind_ok in Hb as (sub' & Hc & Hb).
    replace (start + n - start) with n in Hd by lia. apply rd_ok in Hd. rewrite Hm in Hd. inversion Hd; subst d.
    eapply (decompose_channel_len p (geom_of p)); [..|exact Hc]; auto using geom_wf, geom_dim, geom_K, geom_spw.
    apply add_padding_acc; auto. rewrite Forall_forall in HS. apply HS. eapply nth_error_In; eauto.
Qed.

Lemma dec_pure_patch g den (x : nat -> nat -> T) : (gdim g = 1 \/ gdim g = 2) ->
  den_len_ok g den x -> dec_pure g (den_patch den) x = dec_pure g den x.
Proof.
  intros Hd H. unfold dec_pure. f_equal.
  assert (E : forall l, (forall s, In s l -> s < gK g) ->
    flat_map (fun s => map (fun m => den_apply (gdim g) (den_patch den) m s) (detm g x s)) l =
    flat_map (fun s => map (fun m => den_apply (gdim g) den m s) (detm g x s)) l).
  { induction l as [|s l IH]; intros Hl; [reflexivity|]. cbn [flat_map]. f_equal; [|apply IH; intros; apply Hl; right; auto].
    apply map_ext_in. intros m Hm. unfold den_apply. destruct Hd as [Hd|Hd]; rewrite Hd; cbn [Nat.eqb]; auto.
    cbn [den_patch den1]. rewrite (H Hd s m) by (auto; apply Hl; left; auto). rewrite Nat.eqb_refl. reflexivity. }
  apply E. intros s Hs. apply in_seq in Hs. lia.
Qed.

Lemma any_denoiser p (b b1 : buffer T) data den :
  accepted p -> reachable p b ->
  (1 <= signum p)%Z -> Z.of_nat (length data) = signum p -> Forall (shaped p) data ->
  decompose b data den = Ok (true, b1) -> b1 = Buffer p (map (dec_of p den) data).
Proof.
  intros HA HR Hs HL HS H. pose proof (reachable_weak p b HA HR) as (E & HL2 & Hlen).
  assert (Hp : decompose b data (den_patch den) = Ok (true, b1)).
  { unfold decompose in *. apply bind_ok in H as (q & H1 & H). rewrite (decompose_impl_patch _ _ _ _ _ _ _ H1). exact H. }
  rewrite (decompose_ok p HA) in Hp by (auto; intros; apply den_patch_len).
  inversion Hp as [Hp']. clear Hp. f_equal. apply map_ext_in. intros m Hin.
  unfold dec_of. apply dec_pure_patch; [apply gdim_cases, geom_wf; auto|].
  apply In_nth_error in Hin as (i & Hi).
  unfold decompose in H. apply bind_ok in H as ([r d] & H1 & H). inversion H; subst r.
  rewrite E in H1. eapply (decompose_impl_len p); eauto.
  apply nth_error_Some_lt in Hi. lia.
Qed.

Lemma denoiser_effect p (b b1 : buffer T) data den :
  accepted p -> reachable p b ->
  (1 <= signum p)%Z -> Z.of_nat (length data) = signum p -> Forall (shaped p) data ->
  decompose b data den = Ok (true, b1) ->
  exists b0, decompose b data null_denoiser = Ok (true, b0) /\ length (bdec b1) = length (bdec b0) /\
  forall c ch1 ch0, nth_error (bdec b1) c = Some ch1 -> nth_error (bdec b0) c = Some ch0 ->
    length ch1 = length ch0 /\
    (exists a, nth_error ch1 (nsteps p * bands p) = Some a /\ nth_error ch0 (nsteps p * bands p) = Some a) /\
    forall s i, s < nsteps p -> i < bands p -> exists d,
      nth_error ch0 (s * bands p + i) = Some d /\
      nth_error ch1 (s * bands p + i) = Some (denoised p den s d).
Proof.
  intros HA HR Hs HL HS H. rewrite (any_denoiser p b b1 data den) by auto.
  assert (Hn : keeps_shape (@null_denoiser T)).
  { split; [reflexivity|]. intros m s W. repeat split; auto. }
  exists (Buffer p (map (dec_of p null_denoiser) data)). split; [apply (safe_ok p); auto|].
  cbn [bdec]. rewrite !map_length. split; [reflexivity|].
  intros c ch1 ch0 H1 H0. rewrite nth_error_map in H1, H0.
  destruct (nth_error data c) as [m|]; [|discriminate]. cbn [option_map] in *. inversion H1; inversion H0; subst.
  split; [unfold dec_of; rewrite !dec_pure_length; auto|].
  destruct (den_details p m den HA) as (D1 & D2). split; [|exact D2].
  destruct (nth_error (dec_of p null_denoiser m) (nsteps p * bands p)) as [a|] eqn:Ea.
  - eexists; eauto.
  - rewrite <- spw_bands, <- K_nsteps in Ea by auto. unfold dec_of in Ea. rewrite dec_pure_nth_approx in Ea. discriminate.
Qed.

(** ** Emptiness *)
Lemma is_empty_iff (b : buffer T) : is_empty b = true <-> no_elements b.
Proof.
  unfold is_empty, no_elements. rewrite forallb_forall. split.
  - intros H ch m H1 H2. specialize (H ch H1). rewrite forallb_forall in H. specialize (H m H2). nia.
  - intros H ch H1. apply forallb_forall. intros m H2. specialize (H ch m H1 H2). nia.
Qed.

Lemma fresh_empty p (b : buffer T) : new_buffer p = Ok b -> is_empty b = true.
Proof.
  unfold new_buffer. intros H. destruct (negb _); [discriminate|].
  apply bind_ok in H as (ms & _ & H). apply bind_ok in H as (sh & _ & H).
  destruct (_ <? _)%Z; [discriminate|]. apply bind_ok in H as (mx & _ & H).
  destruct (_ <? _)%Z; [discriminate|]. inversion H; subst. apply is_empty_iff.
  intros ch m H1 H2. cbn [bdec] in H1. apply repeat_spec in H1. subst ch. apply repeat_spec in H2. subst m. left. reflexivity.
Qed.

Lemma level_pos p s : accepted p -> Forall (fun n => (1 <= n)%Z) (shape p) -> s <= nsteps p ->
  1 <= level_rows p s /\ 1 <= level_cols p s.
Proof.
  intros HA Hpos Hs.
  assert (G : forall n, 1 <= n -> 1 <= round_up (nsteps p) n / 2 ^ s).
  { intros n Hn. unfold round_up. assert (0 < 2 ^ nsteps p) by (apply Nat.neq_0_lt_0, Nat.pow_nonzero; lia).
    assert (0 < 2 ^ s) by (apply Nat.neq_0_lt_0, Nat.pow_nonzero; lia).
    assert (1 <= (n + 2 ^ nsteps p - 1) / 2 ^ nsteps p).
    { apply Nat.div_le_lower_bound; lia. }
    apply Nat.div_le_lower_bound; [lia|]. assert (2 ^ s <= 2 ^ nsteps p) by (apply Nat.pow_le_mono_r; lia). nia. }
  unfold level_rows, level_cols, is_1d, drows, dcols.
  rewrite Forall_forall in Hpos.
  destruct (acc_cases p HA) as [(n & E & _)|(w & h & E & _)]; rewrite E in *.
  - specialize (Hpos n (or_introl eq_refl)). split; [apply G; lia|]. cbn [length Nat.eqb]. lia.
  - pose proof (Hpos w (or_introl eq_refl)). pose proof (Hpos h (or_intror (or_introl eq_refl))).
    split; [apply G; lia|]. cbn [length Nat.eqb]. apply G; lia.
Qed.

Lemma decomposed_not_empty p (b b' : buffer T) data den :
  accepted p -> Forall (fun n => (1 <= n)%Z) (shape p) -> reachable p b -> keeps_shape den ->
  Forall mwf data -> (1 <= signum p)%Z ->
  decompose b data den = Ok (true, b') -> is_empty b' = false.
Proof.
  intros HA Hpos HR Hden Hd Hsig H.
  assert (HI : binv p b) by (apply reachable_inv; auto).
  assert (HI' : binv p b') by (apply reachable_inv; auto; eapply reach_decompose; eauto).
  destruct (is_empty b') eqn:Ee; auto. exfalso. rewrite is_empty_iff in Ee.
  destruct HI' as (E' & HL' & _). destruct HI as (E & HL & HC).
  destruct (bdec b') as [|ch l] eqn:Eb; [simpl in HL'; lia|].
  assert (HLay : has_layout p ch).
  { unfold decompose in H. rewrite E in H. apply bind_ok in H as ([r d] & H1 & H2). inversion H2; subst b' r.
    cbn [bdec snd] in Eb. subst d.
    eapply (decompose_impl_inv p (bdec b)) with (i := 0); [..|exact H1| | |]; auto; [|lia].
    intros c Hc. eapply binv_len; eauto. repeat split; auto. }
  destruct HLay as (H1 & H2 & H3).
  destruct (nth_error ch (nsteps p * bands p)) as [m|] eqn:Em.
  2:{ apply nth_error_None in Em. lia. }
  destruct (H3 m eq_refl) as (W & R & C).
  destruct (level_pos p (nsteps p) HA Hpos ltac:(lia)).
  destruct (Ee ch m); [rewrite Eb; left; auto|eapply nth_error_In; eauto|lia|lia].
Qed.
End Api.

Section Pack.
Context {T : Type} {A : Arith T}.
Lemma layout_after_decompose p (b : buffer T) data den :
  accepted p -> reachable p b -> keeps_shape den ->
  (1 <= signum p)%Z -> Z.of_nat (length data) = signum p -> Forall (shaped p) data ->
  exists b', decompose b data den = Ok (true, b') /\
    Z.of_nat (length (bdec b')) = signum p /\ Forall (has_layout p) (bdec b').
Proof.
  intros. destruct (decompose_compose_safe' p b data den) as (b' & H5 & _ & H6 & H7 & _); auto. eauto.
Qed.
Lemma refused_unchanged (b b' : buffer T) den :
  (forall data, decompose b data den = Ok (false, b') -> b' = b) /\
  (forall data, decompose1 b data den = Ok (false, b') -> b' = b) /\
  (forall v data, view_decompose v b data den = Ok (false, b') -> b' = b).
Proof.
  split; [|split].
  - intros; eapply decompose_false; eauto.
  - intros; eapply decompose1_false; eauto.
  - intros; eapply view_false; eauto.
Qed.
Lemma empty_facts :
  (forall b : buffer T, is_empty b = true <-> no_elements b) /\
  (forall p (b : buffer T), new_buffer p = Ok b -> is_empty b = true) /\
  (forall p (b b' : buffer T) data den,
     accepted p -> Forall (fun n => (1 <= n)%Z) (shape p) -> reachable p b -> keeps_shape den ->
     Forall mwf data -> (1 <= signum p)%Z ->
     decompose b data den = Ok (true, b') -> is_empty b' = false).
Proof.
  split; [apply is_empty_iff|]. split; [apply fresh_empty|].
  intros; eapply decomposed_not_empty; eauto.
Qed.
End Pack.

(** An arithmetic on Z for examples only (a0 = 0, scaling and sqrt(2) ignored). *)
Definition Z_arith : Arith Z :=
  {| a0 := 0%Z; aadd := Z.add; amul := Z.mul; aopp := Z.opp; alit := fun q => Qnum q;
     asqrt2 := fun x => x; ascale := fun _ _ x => x |}.

Lemma history_example : exists b : buffer Z, @reachable Z Z_arith (Params [8]%Z 2 1 1) b /\
  exists ch0 ch1, bdec b = [ch0; ch1] /\ untouched (Params [8]%Z 2 1 1) ch0 /\
    has_layout (Params [8]%Z 2 1 1) ch1.
Proof.
  eexists. split.
  - eapply (reach_view (A:=Z_arith) _ _ (View 1 1 true) [mcolvec [1; 2; 3; 4; 5; 6; 7; 8]%Z] null_denoiser).
    + apply reach_new. vm_compute. reflexivity.
    + constructor; [apply mcolvec_wf|constructor].
    + split; [reflexivity|]. intros m s W. repeat split; auto.
    + vm_compute. reflexivity.
  - eexists. eexists. split; [reflexivity|]. split.
    + split; [reflexivity|]. intros m [<-|[<-|[]]]; auto.
    + split; [reflexivity|]. split.
      * intros s i m Hs Hi Hm. vm_compute in Hs, Hi. assert (s = 0) by lia. assert (i = 0) by lia. subst.
        vm_compute in Hm. inversion Hm; subst. repeat split; vm_compute; reflexivity.
      * intros m Hm. vm_compute in Hm. inversion Hm; subst. repeat split; vm_compute; reflexivity.
Qed.

Lemma scaled_size {T} {A : Arith T} p (b : buffer T) data den sf :
  accepted p -> reachable p b -> keeps_shape den ->
  (1 <= signum p)%Z -> Z.of_nat (length data) = signum p -> Forall (shaped p) data ->
  (0 <= sf <= steps p)%Z ->
  exists b' out, decompose b data den = Ok (true, b') /\ compose b' sf = Ok (true, out) /\
    Z.of_nat (length out) = signum p /\
    Forall (sized (drows p / 2 ^ Z.to_nat sf) (if is_1d p then 1 else dcols p / 2 ^ Z.to_nat sf)) out.
Proof.
  intros H1 H2 H3 H4 H5 H6 Hsf.
  destruct (decompose_compose_safe' p b data den) as (b' & HD & _ & _ & _ & HC); auto.
  destruct (HC sf Hsf) as (out & HO). exists b', out. tauto.
Qed.
