(** * P_More: continuing a decomposition (partial DecomposeImpl), C40. *)
Require Import List Bool Arith ZArith QArith Lia Reals.
Require Import ZifyBool.
Require Import Verif.M_Base Verif.M_Params Verif.M_Padding Verif.M_Wavelet Verif.M_Buffer Verif.M_Real.
Require Import Verif.S_Params Verif.S_Buffer.
Require Import Verif.P_Base Verif.P_Params Verif.P_Padding Verif.P_Wavelet Verif.P_Buffer Verif.P_Impl Verif.P_Api Verif.P_Api2.
Require Import Verif.P_Paths.
Import ListNotations.
Open Scope nat_scope.

Section More.
Context {T : Type} {A : Arith T}.

Definition details (g : geom) (den : denoiser T) x s :=
  map (fun m => den_apply (gdim g) den m s) (detm g x s).
Lemma details_length g den x s : length (details g den x s) = gspw g.
Proof. unfold details. rewrite map_length. apply detm_length. Qed.

(** the stack entry of step s performs step s *)
Definition performs (g : geom) (den : denoiser T) (stack : list (list (smat T))) : Prop :=
  forall s x, s < gK g -> exists wm, rd stack s = Ok wm /\
    one_side_step (gdim g) den wm (apm g x s) s = Ok (details g den x s, apm g x (S s)).

Lemma flat_map_seq_snoc {B} (f : nat -> list B) a n : flat_map f (seq a (S n)) = flat_map f (seq a n) ++ f (a + n).
Proof. rewrite seq_S, flat_map_app. simpl. rewrite app_nil_r. reflexivity. Qed.
Lemma flat_map_seq_len {B} (f : nat -> list B) c a n :
  (forall s, length (f s) = c) -> length (flat_map f (seq a n)) = n * c.
Proof.
  intros H; induction n; [reflexivity|]. rewrite flat_map_seq_snoc, app_length, IHn, H. lia.
Qed.

Lemma more_loop g den stack x (pre junk : decomposition T) old n :
  performs g den stack -> old + n <= gK g ->
  length pre = old * gspw g -> length pre + length junk = gK g * gspw g + 1 ->
  loop n 0 (fun add (st : decomposition T * mat T) =>
      let step := add + old in
      let* wm := rd stack step in
      let* r := one_side_step (gdim g) den wm (snd st) step in
      let* dec' := store (fst st) (step * gspw g) (fst r) in
      Ok (dec', snd r)) (pre ++ junk, apm g x old)
  = Ok (pre ++ flat_map (details g den x) (seq old n) ++ skipn (n * gspw g) junk, apm g x (old + n)).
Proof.
  intros HP. induction n; intros Hn HL HJ.
  - simpl. rewrite Nat.add_0_r. reflexivity.
  - rewrite loop_snoc, IHn by (auto; lia). cbn [bind fst snd]. rewrite Nat.add_0_l. cbv zeta.
    rewrite (Nat.add_comm n old).
    destruct (HP (old + n) x) as (wm & -> & E); [lia|]. cbn [bind].
    rewrite E. cbn [bind fst snd].
    set (f := details g den x).
    assert (HF : length (flat_map f (seq old n)) = n * gspw g)
      by (apply flat_map_seq_len; intros; apply details_length).
    assert (HK : (old + S n) * gspw g <= gK g * gspw g) by (apply Nat.mul_le_mono_r; lia).
    rewrite app_assoc.
    replace ((old + n) * gspw g) with (length (pre ++ flat_map f (seq old n))) by (rewrite app_length; lia).
    rewrite (store_ok _ (pre ++ flat_map f (seq old n)) (firstn (gspw g) (skipn (n * gspw g) junk))
               (skipn (S n * gspw g) junk)).
    + cbn [bind]. rewrite flat_map_seq_snoc, <- !app_assoc.
      replace (S (old + n)) with (old + S n) by lia. reflexivity.
    + f_equal. rewrite <- (firstn_skipn (gspw g) (skipn (n * gspw g) junk)) at 1.
      f_equal. rewrite skipn_skipn_add. f_equal. simpl; lia.
    + fold (f (old + n)). unfold f. rewrite details_length. rewrite firstn_length, skipn_length. nia.
Qed.

Lemma more_channel g den stack x (junk : decomposition T) old :
  performs g den stack -> old <= gK g ->
  old * gspw g + length junk = gK g * gspw g ->
  let sub := flat_map (details g den x) (seq 0 old) ++ apm g x old :: junk in
  (let* remainder := rd sub (old * gspw g) in
   let* st := loop (gK g - old) 0 (fun add (st : decomposition T * mat T) =>
      let step := add + old in
      let* wm := rd stack step in
      let* r := one_side_step (gdim g) den wm (snd st) step in
      let* dec' := store (fst st) (step * gspw g) (fst r) in
      Ok (dec', snd r)) (sub, remainder) in
   wr (fst st) (gK g * gspw g) (snd st)) = Ok (dec_pure g den x).
Proof.
  intros HP Ho HJ sub.
  assert (HF : length (flat_map (details g den x) (seq 0 old)) = old * gspw g)
    by (apply flat_map_seq_len; intros; apply details_length).
  unfold sub at 1. erewrite rd_some by (rewrite nth_error_app2 by lia; rewrite HF, Nat.sub_diag; reflexivity).
  cbn [bind]. unfold sub.
  rewrite (more_loop g) by (cbn [length] in *; auto; lia). cbn [bind fst snd].
  set (P := _ ++ flat_map _ _ ++ _).
  assert (EP : P = flat_map (details g den x) (seq 0 (gK g)) ++ skipn ((gK g - old) * gspw g) (apm g x old :: junk)).
  { unfold P. rewrite app_assoc, <- flat_map_app. f_equal. f_equal.
    replace (seq 0 (gK g)) with (seq 0 (old + (gK g - old))) by (f_equal; lia).
    rewrite seq_app. reflexivity. }
  rewrite EP. clear P EP.
  assert (HG : length (flat_map (details g den x) (seq 0 (gK g))) = gK g * gspw g)
    by (apply flat_map_seq_len; intros; apply details_length).
  assert (HS : length (skipn ((gK g - old) * gspw g) (apm g x old :: junk)) = 1).
  { rewrite skipn_length. cbn [length]. rewrite Nat.mul_sub_distr_r.
    assert (old * gspw g <= gK g * gspw g) by (apply Nat.mul_le_mono_r; lia). lia. }
  destruct (skipn _ _) as [|o post] eqn:E; [discriminate|].
  destruct post; [|discriminate].
  rewrite wr_lt by (rewrite app_length; simpl; lia). rewrite <- HG, upd_app.
  replace (old + (gK g - old)) with (gK g) by lia. reflexivity.
Qed.

(** ** same padded size *)
Definition same_geom (g g' : geom) : Prop :=
  gdim g = gdim g' /\ gt g = gt g' /\ gh g = gh g' /\ gw g = gw g'.
Lemma ap_same g g' x s : same_geom g g' -> ap g x s = ap (T:=T) g' x s.
Proof.
  intros (E1 & E2 & E3 & E4). induction s; [reflexivity|].
  cbn [ap]. unfold hs, ws. rewrite IHs, E1, E2, E3, E4. reflexivity.
Qed.
Lemma apm_same g g' x s : same_geom g g' -> apm g x s = apm (T:=T) g' x s.
Proof.
  intros H. unfold apm. rewrite (ap_same g g') by auto. destruct H as (E1 & E2 & E3 & E4).
  unfold hs, ws. rewrite E1, E3, E4. reflexivity.
Qed.
Lemma details_same g g' den x s : same_geom g g' -> details g den x s = details g' den x s.
Proof.
  intros H. unfold details, detm, detf. rewrite (ap_same g g') by auto. destruct H as (E1 & E2 & E3 & E4).
  unfold hs, ws. rewrite E1, E2, E3, E4. reflexivity.
Qed.

(** the whole call *)
Lemma loop_all (F : decomposition T -> res (decomposition T)) (dec : ndecomposition T) (out : ndecomposition T) :
  length out = length dec ->
  (forall i sub o, nth_error dec i = Some sub -> nth_error out i = Some o -> F sub = Ok o) ->
  forall n, n <= length dec ->
  loop n 0 (fun ch dec => let* sub := rd dec ch in let* sub' := F sub in wr dec ch sub') dec
  = Ok (firstn n out ++ skipn n dec).
Proof.
  intros HL HF. induction n; intros Hn; [reflexivity|].
  rewrite loop_snoc, IHn by lia. cbn [bind]. rewrite Nat.add_0_l.
  destruct (nth_error dec n) as [sub|] eqn:Es; [|apply nth_error_None in Es; lia].
  destruct (nth_error out n) as [o|] eqn:Eo; [|apply nth_error_None in Eo; lia].
  assert (HLf : length (firstn n out) = n) by (rewrite firstn_length; lia).
  assert (Esk : skipn n dec = sub :: skipn (S n) dec).
  { clear - Es. revert dec Es. induction n; intros [|y l] H; simpl in *; try discriminate; try congruence.
    apply IHn; auto. }
  rewrite Esk.
  erewrite rd_some by (rewrite nth_error_app2 by lia; rewrite HLf, Nat.sub_diag; reflexivity).
  cbn [bind]. rewrite (HF n sub o) by auto. cbn [bind].
  rewrite wr_lt by (rewrite app_length; simpl; lia).
  replace (upd (firstn n out ++ sub :: skipn (S n) dec) n o)
    with (upd (firstn n out ++ sub :: skipn (S n) dec) (length (firstn n out)) o) by (rewrite HLf; reflexivity).
  rewrite upd_app.
  assert (Ef : firstn (S n) out = firstn n out ++ [o]).
  { clear - Eo. revert out Eo. induction n; intros [|y l] H; simpl in *; try discriminate; try congruence.
    f_equal. apply IHn; auto. }
  rewrite Ef, <- app_assoc. reflexivity.
Qed.

Lemma loop_ext {S} n i (F G : nat -> S -> res S) s : (forall i s, F i s = G i s) -> loop n i F s = loop n i G s.
Proof. intros H. revert i s; induction n; intros; simpl; auto. rewrite H. destruct (G i s); cbn [bind]; auto. Qed.

End More.

Section Call.
Context {T : Type} {A : Arith T}.
Variables p q : params.
Hypothesis HA : accepted p.
Hypothesis HQ : accepted q.
Hypothesis Esh : shape q = shape p.
Hypothesis Ety : wtype q = wtype p.
Hypothesis Esn : signum q = signum p.
Hypothesis Hle : (steps q <= steps p)%Z.
Hypothesis Er : level_rows q 0 = level_rows p 0.
Hypothesis Ec : level_cols q 0 = level_cols p 0.

Lemma geoms_same : same_geom (geom_of p) (geom_of q).
Proof.
  pose proof (hs_level p HA 0) as H1. pose proof (hs_level q HQ 0) as H2.
  pose proof (ws_level p HA 0) as H3. pose proof (ws_level q HQ 0) as H4.
  rewrite hs_0 in H1, H2. rewrite ws_0 in H3, H4 by (apply geom_wf; auto).
  unfold same_geom. rewrite <- !geom_dim, <- !geom_t by auto. unfold dimension. rewrite Esh, Ety.
  repeat split; congruence.
Qed.

Lemma padf_same (m : mat T) : padf p m = padf q m.
Proof.
  destruct geoms_same as (_ & _ & E3 & E4). unfold padf, drows, dcols. rewrite Esh, E3, E4. reflexivity.
Qed.

(** every channel of [dec] starts with what [q]'s decomposition stored *)
Lemma more_ok (bq bp : buffer T) data den stack (dec : ndecomposition T) :
  (1 <= signum p)%Z -> Z.of_nat (length data) = signum p -> Forall (shaped p) data ->
  reachable q bq -> reachable p bp -> keeps_shape den ->
  gen_matrices (map (pside p) (shape p)) p = Ok stack -> performs (geom_of p) den stack ->
  forall bq' bp', decompose bq data den = Ok (true, bq') -> decompose bp data den = Ok (true, bp') ->
  length dec = length (bdec bq') ->
  (forall i sub ch, nth_error dec i = Some sub -> nth_error (bdec bq') i = Some ch ->
     length sub = nsteps p * bands p + 1 /\ firstn (length ch) sub = ch) ->
  decompose_more p dec (nsteps p - nsteps q) den = Ok (bdec bp').
Proof.
  intros Hs HLd HS Rq Rp Hden Hst HP bq' bp' Dq Dp HLen Hsub.
  assert (HSq : Forall (shaped q) data).
  { eapply Forall_impl; [|exact HS]. unfold shaped, drows, dcols. rewrite Esh. auto. }
  pose proof (safe_ok p bp data den HA Rp Hden Hs HLd HS) as Ep.
  pose proof (safe_ok q bq data den HQ Rq Hden ltac:(lia) ltac:(lia) HSq) as Eq.
  rewrite Dp in Ep. rewrite Dq in Eq. inversion Ep; subst bp'; clear Ep. inversion Eq; subst bq'; clear Eq.
  cbn [bdec] in *. rewrite map_length in HLen.
  unfold decompose_more, decompose_more_gen. rewrite calc_padded_acc by auto. cbn [bind]. rewrite Hst. cbn [bind].
  assert (EK : Z.to_nat (steps p) = gK (geom_of p)) by (apply geom_K; auto).
  assert (EKq : nsteps q = gK (geom_of q)) by (apply geom_K; auto).
  assert (HKle : gK (geom_of q) <= gK (geom_of p)) by (rewrite <- EK, <- EKq; unfold nsteps; lia).
  replace (Z.to_nat (steps p) - (nsteps p - nsteps q)) with (gK (geom_of q)) by (unfold nsteps in *; lia).
  replace (nsteps p - nsteps q) with (gK (geom_of p) - gK (geom_of q)) by (unfold nsteps in *; lia).
  pose proof (geom_spw p HA) as Esp. pose proof (geom_dim p HA) as Edim.
  assert (Egs : gspw (geom_of q) = gspw (geom_of p)).
  { unfold gspw. destruct geoms_same as (E1 & _). rewrite E1. reflexivity. }
  rewrite EK, Esp, Edim.
  set (F := fun sub : decomposition T =>
     let* remainder := rd sub (gK (geom_of q) * gspw (geom_of p)) in
     let* st := loop (gK (geom_of p) - gK (geom_of q)) 0 (fun add (st : decomposition T * mat T) =>
        let step := add + gK (geom_of q) in
        let* wm := rd stack step in
        let* r := one_side_step (gdim (geom_of p)) den wm (snd st) step in
        let* dec' := store (fst st) (step * gspw (geom_of p)) (fst r) in
        Ok (dec', snd r)) (sub, remainder) in
     wr (fst st) (gK (geom_of p) * gspw (geom_of p)) (snd st)).
  transitivity (loop (Z.to_nat (signum p)) 0 (fun ch dec => let* sub := rd dec ch in let* sub' := F sub in wr dec ch sub') dec).
  { apply loop_ext. intros i d. unfold F. unfold ndecomposition, decomposition in *. destruct (rd d i) as [sub| |]; cbn [bind]; [|reflexivity..].
    destruct (rd sub _) as [rem| |]; cbn [bind]; [|reflexivity..].
    destruct (loop _ _ _ _) as [st| |]; cbn [bind]; reflexivity. }
  rewrite (loop_all F dec (map (dec_of p den) data)).
  - rewrite firstn_all2, skipn_all2, app_nil_r by (rewrite ?map_length; lia). reflexivity.
  - rewrite map_length. auto.
  - intros i sub o Hi Ho. rewrite nth_error_map in Ho.
    destruct (nth_error data i) as [m|] eqn:Em; [|discriminate]. inversion Ho; subst o; clear Ho.
    destruct (Hsub i sub (dec_of q den m)) as (HL & HF); auto.
    { rewrite nth_error_map, Em. reflexivity. }
    assert (Esub : sub = flat_map (details (geom_of p) den (padf p m)) (seq 0 (gK (geom_of q))) ++
              apm (geom_of p) (padf p m) (gK (geom_of q)) :: skipn (length (dec_of q den m)) sub).
    { rewrite <- (firstn_skipn (length (dec_of q den m)) sub) at 1. rewrite HF.
      unfold dec_of, dec_pure. rewrite <- app_assoc. rewrite <- padf_same.
      rewrite (apm_same (geom_of p) (geom_of q)) by apply geoms_same.
      f_equal. rewrite !flat_map_concat_map. f_equal. apply map_ext. intros s.
      symmetry. apply (details_same (geom_of p) (geom_of q)). apply geoms_same. }
    unfold F. rewrite Esub. apply more_channel; auto.
    rewrite skipn_length, HL. unfold dec_of. rewrite dec_pure_length, Egs.
    rewrite <- (spw_bands p HA). unfold nsteps. rewrite EK.
    assert (gK (geom_of q) * gspw (geom_of p) <= gK (geom_of p) * gspw (geom_of p)) by (apply Nat.mul_le_mono_r; auto).
    lia.
  - lia.
Qed.

(** 2D, any arithmetic: the very same matrices *)
Lemma performs_2d den : is_1d p = false ->
  exists stack, @gen_matrices T A (map (pside p) (shape p)) p = Ok stack /\ performs (geom_of p) den stack.
Proof.
  intros H1. assert (Ed : gdim (geom_of p) = 2).
  { destruct (gdim_cases _ (geom_wf p HA)) as [E|E]; auto. rewrite <- geom_dim in E by auto.
    unfold is_1d in H1. unfold dimension in E. rewrite E in H1. discriminate. }
  eexists. split; [apply gen_matrices_acc; auto|]. intros s x Hs.
  pose proof (stack_rd p HA (T:=T) s Hs Ed) as E. eexists. split; [exact E|].
  apply (one_side_step_ok (geom_of p) den
    (fun s => if gdim (geom_of p) =? 1 then Ok [filter_mat (lo_r (gt (geom_of p))) (hi_r (gt (geom_of p)))]
             else Ok [dm (gt (geom_of p)) (ws (geom_of p) s); dm (gt (geom_of p)) (hs (geom_of p) s)])); auto.
  - apply geom_wf; auto.
  - intros ? ?; reflexivity.
  - rewrite Ed. reflexivity.
  - rewrite Ed. discriminate.
Qed.
End Call.

Section Real.
Local Existing Instance exactR.
Variables p : params.
Hypothesis HA : accepted p.

Lemma performs_R den : keeps_shape den ->
  exists stack, @gen_matrices R exactR (map (pside p) (shape p)) p = Ok stack /\ performs (geom_of p) den stack.
Proof.
  intros Hden. destruct (is_1d p) eqn:H1; [|apply performs_2d; auto].
  assert (Ed : gdim (geom_of p) = 1).
  { rewrite <- geom_dim by auto. unfold is_1d in H1. unfold dimension. lia. }
  eexists. split; [apply gen_matrices_acc; auto|]. intros s x Hs.
  destruct (acc_cases p HA) as [(n & E & Hn & _)|(w & h & E & _)].
  2:{ unfold is_1d in H1. rewrite E in H1. discriminate. }
  eexists. split.
  { unfold rd. rewrite P_Base.nth_error_map_seq by auto. rewrite E. reflexivity. }
  cbn [map].
  pose proof (hs_step _ s (geom_wf p HA) Hs) as (Hh & Hh2). pose proof (gt_range _ s (geom_wf p HA) Hs) as Ht.
  pose proof (one_side_step_ok (geom_of p) den (fun _ => Ok [filter_mat (lo_r (gt (geom_of p))) (hi_r (gt (geom_of p)))])
                x s [filter_mat (lo_r (gt (geom_of p))) (hi_r (gt (geom_of p)))] (geom_wf p HA) Hs) as H.
  unfold details. rewrite <- H.
  2:{ intros ? ?. rewrite Ed. reflexivity. }
  2: reflexivity.
  2:{ intros _ l. apply Hden. }
  unfold one_side_step. rewrite Ed. cbn [Nat.eqb]. unfold one_side_step_1d.
  destruct (mcol (apm (geom_of p) x s) 0) as [sig| |] eqn:Esig; cbn [bind]; auto.
  unfold rd; cbn [nth_error bind].
  assert (HL : length sig = hs (geom_of p) s).
  { unfold apm in Esig. rewrite (ws_1 (geom_of p)) in Esig by auto. rewrite mcol_mk in Esig by lia.
    inversion Esig. rewrite map_length, seq_length. reflexivity. }
  rewrite <- !geom_t in * by auto.
  assert (EH : Z.to_nat (pside p n) / 2 ^ s = length sig).
  { rewrite HL. unfold hs, geom_of. rewrite E. reflexivity. }
  rewrite EH. unfold dm.
  destruct (dwt_paths sig (wtype p)) as (D & F & lh & HD & HF & E1 & E2); [auto|lia|].
  rewrite daubechies_mat_ok in HD by (auto; lia). inversion HD; subst D; clear HD.
  rewrite (analysis_mat_acc p HA) in HF. inversion HF; subst F; clear HF.
  rewrite E1, E2. reflexivity.
Qed.
End Real.
