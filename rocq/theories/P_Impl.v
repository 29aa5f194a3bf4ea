(** * P_Impl: whole-buffer Decompose and Compose as pure functions. *)
Require Import List Bool Arith ZArith QArith Lia.
Require Import ZifyBool.
Require Import Verif.M_Base Verif.M_Params Verif.M_Padding Verif.M_Wavelet Verif.M_Buffer.
Require Import Verif.S_Params Verif.S_Buffer Verif.P_Base Verif.P_Params Verif.P_Padding Verif.P_Wavelet Verif.P_Buffer.
Import ListNotations.
Open Scope nat_scope.

Definition pside (p : params) (n : Z) : Z :=
  if (wtype p =? 0)%Z then n else padded_side (2 ^ steps p) n.

Definition geom_of (p : params) : geom :=
  let K := Z.to_nat (steps p) in
  match shape p with
  | [n] => Geom 1 (wtype p) K (Z.to_nat (pside p n)) 1
  | [w; h] => Geom 2 (wtype p) K (Z.to_nat (pside p h)) (Z.to_nat (pside p w))
  | _ => Geom 0 0 0 0 0
  end.

Lemma Z2N_pow (k : Z) : (0 <= k)%Z -> Z.to_nat (2 ^ k) = 2 ^ Z.to_nat k.
Proof.
  intros. rewrite <- (Z2Nat.id k) at 1 by auto.
  rewrite <- (Nat2Z.id (2 ^ Z.to_nat k)). f_equal.
  rewrite Nat2Z.inj_pow. reflexivity.
Qed.

Lemma Z2N_div_pow (n : Z) (k : nat) : (0 <= n)%Z -> Z.to_nat (n / 2 ^ Z.of_nat k) = Z.to_nat n / 2 ^ k.
Proof.
  intros. rewrite Z2Nat.inj_div by (try apply Z.pow_nonneg; lia).
  rewrite Z2N_pow by lia. rewrite Nat2Z.id. reflexivity.
Qed.

Lemma side_of_padded t k n : (1 <= t <= 10)%Z -> (0 <= k)%Z -> (2 ^ k * (2 * t - 1) <= n < 2 ^ 63)%Z ->
  side_ok t (Z.to_nat k) (Z.to_nat (padded_side (2 ^ k) n)) /\
  (n <= padded_side (2 ^ k) n)%Z /\ (padded_side (2 ^ k) n < n + 2 ^ k)%Z.
Proof.
  intros Ht Hk Hn. assert (0 < 2 ^ k)%Z by (apply Z.pow_pos_nonneg; lia).
  destruct (padded_side_spec k n) as ((Hd & Hle & Hl) & Hlt); [lia|nia|nia|].
  split; [|split; lia].
  destruct Hd as (q & Eq). exists (Z.to_nat q).
  assert (2 * t - 1 <= q)%Z by nia.
  split; [|lia].
  rewrite Eq. rewrite Z.mul_comm. rewrite Z2Nat.inj_mul by lia. rewrite Z2N_pow by lia. reflexivity.
Qed.

Section Acc.
Variable p : params.
Hypothesis HA : accepted p.

Lemma acc_steps : (0 <= steps p < 2 ^ 64)%Z.
Proof. destruct HA as ((_ & _ & _ & H & _) & _). exact H. Qed.
Lemma acc_signum : (0 <= signum p < 2 ^ 64)%Z.
Proof. destruct HA as ((_ & _ & H & _) & _). exact H. Qed.

Lemma acc_cases :
  (exists n, shape p = [n] /\ (0 <= n < 2 ^ 63)%Z /\ (2 * wtype p <= n)%Z) \/
  (exists w h, shape p = [w; h] /\ (0 <= w < 2 ^ 63)%Z /\ (0 <= h < 2 ^ 63)%Z /\
     (2 * wtype p <= w)%Z /\ (2 * wtype p <= h)%Z).
Proof.
  destruct HA as ((Hr & _) & (Hd & Hm & _) & _ & Hb).
  destruct (shape p) as [|a [|b [|c l]]]; simpl in Hd; try lia.
  - left. exists a. inversion Hr; inversion Hb; inversion Hm; subst. unfold u64 in *.
    split; [reflexivity|]. split; lia.
  - right. exists a, b. inversion Hr as [|? ? ? Hr']; inversion Hb as [|? ? ? Hb'];
    inversion Hm as [|? ? ? Hm']; subst. inversion Hr'; inversion Hb'; inversion Hm'; subst. unfold u64 in *.
    split; [reflexivity|]. repeat split; lia.
Qed.

Lemma acc_none : wtype p = 0%Z -> steps p = 0%Z.
Proof. intros E. destruct HA as (_ & (_ & _ & H) & _). rewrite E in H. exact H. Qed.

Lemma acc_fit : wtype p <> 0%Z -> Forall (fun n => (2 ^ steps p * (2 * wtype p - 1) <= n)%Z) (shape p).
Proof.
  intros E. destruct HA as (_ & (_ & _ & H) & _). destruct (Z.eqb_spec (wtype p) 0); [contradiction|auto].
Qed.

Lemma acc_type : (0 <= wtype p <= 10)%Z. Proof. apply HA. Qed.

Lemma pside_facts n : In n (shape p) ->
  (n <= pside p n)%Z /\ (0 <= n)%Z /\
  (wtype p <> 0%Z -> side_ok (wtype p) (Z.to_nat (steps p)) (Z.to_nat (pside p n)) /\ (1 <= n)%Z /\ (pside p n < n + 2 ^ steps p)%Z).
Proof.
  intros Hin. unfold pside.
  destruct HA as ((Hr & _) & _ & Ht & Hb). pose proof acc_steps.
  rewrite Forall_forall in Hr, Hb. specialize (Hr n Hin). specialize (Hb n Hin). unfold u64 in Hr.
  destruct (Z.eqb_spec (wtype p) 0).
  - repeat split; try lia.
  - pose proof (acc_fit n0) as Hf. rewrite Forall_forall in Hf. specialize (Hf n Hin).
    destruct (side_of_padded (wtype p) (steps p) n) as (H1 & H2 & H3); try lia.
    assert (0 < 2 ^ steps p)%Z by (apply Z.pow_pos_nonneg; lia).
    split; [lia|]. split; [lia|]. intros _. split; auto. split; [nia|lia].
Qed.

Lemma geom_wf : gwf (geom_of p).
Proof.
  unfold geom_of, gwf.
  assert (Ht : 0 < Z.to_nat (steps p) -> wtype p <> 0%Z).
  { intros H E. pose proof (acc_none E). lia. }
  pose proof acc_type.
  destruct acc_cases as [(n & E & _)|(w & h & E & _)]; rewrite E; simpl gdim; simpl gt; simpl gK; simpl gh; simpl gw.
  - split; [auto|]. intros HK. specialize (Ht HK).
    destruct (pside_facts n) as (_ & _ & H2); [rewrite E; left; auto|].
    destruct (H2 Ht) as (H3 & _). repeat split; auto; try lia. 
  - split; [auto|]. intros HK. specialize (Ht HK).
    destruct (pside_facts w) as (_ & _ & H2); [rewrite E; left; auto|].
    destruct (pside_facts h) as (_ & _ & H4); [rewrite E; right; left; auto|].
    destruct (H2 Ht) as (H3 & _). destruct (H4 Ht) as (H5 & _). repeat split; auto; lia.
Qed.

Lemma geom_dim : dimension p = gdim (geom_of p).
Proof.
  unfold dimension, geom_of. destruct acc_cases as [(n & E & _)|(w & h & E & _)]; rewrite E; reflexivity.
Qed.
Lemma geom_K : Z.to_nat (steps p) = gK (geom_of p).
Proof.
  unfold geom_of. destruct acc_cases as [(n & E & _)|(w & h & E & _)]; rewrite E; reflexivity.
Qed.
Lemma geom_t : wtype p = gt (geom_of p).
Proof.
  unfold geom_of. destruct acc_cases as [(n & E & _)|(w & h & E & _)]; rewrite E; reflexivity.
Qed.
Lemma geom_spw : spw p = gspw (geom_of p).
Proof. unfold spw, gspw. rewrite geom_dim. reflexivity. Qed.

Lemma calc_padded_acc : calc_padded (wtype p) (shape p) (steps p) = Ok (map (pside p) (shape p)).
Proof.
  unfold pside. destruct (Z.eqb_spec (wtype p) 0) as [E|E].
  - rewrite E. unfold calc_padded. simpl. rewrite map_id. reflexivity.
  - unfold calc_padded. destruct (Z.eqb_spec (wtype p) 0); [contradiction|].
    assert (Hne : shape p <> []) by (destruct acc_cases as [(? & -> & _)|(? & ? & -> & _)]; congruence).
    destruct (min_elem_spec _ Hne) as (m & Em & Hin & Hall).
    pose proof (acc_fit E) as Hf. rewrite Forall_forall in Hf. specialize (Hf m Hin).
    pose proof acc_steps. pose proof acc_type.
    assert (0 < 2 ^ steps p)%Z by (apply Z.pow_pos_nonneg; lia).
    rewrite max_steps_ok with (m := m) by (auto; nia). cbn [bind].
    assert (steps p <= Z.log2 (m / (2 * wtype p - 1)))%Z by (apply log2_div_spec; nia).
    rewrite guard_true by lia. reflexivity.
Qed.

Lemma rows_cols_padded : rows_cols (map (pside p) (shape p)) = Ok (gh (geom_of p), gw (geom_of p)).
Proof.
  unfold rows_cols, geom_of. destruct acc_cases as [(n & E & _)|(w & h & E & _)]; rewrite E; reflexivity.
Qed.
Lemma rows_cols_shape : rows_cols (shape p) = Ok (drows p, dcols p).
Proof.
  unfold rows_cols, drows, dcols. destruct acc_cases as [(n & E & _)|(w & h & E & _)]; rewrite E; reflexivity.
Qed.

Lemma drows_le : drows p <= gh (geom_of p) /\ (wtype p <> 0%Z -> 1 <= drows p) /\ (wtype p = 0%Z -> drows p = gh (geom_of p)).
Proof.
  unfold drows, geom_of. destruct acc_cases as [(n & E & _)|(w & h & E & _)]; rewrite E; simpl gh.
  - destruct (pside_facts n) as (H1 & H2 & H3); [rewrite E; left; auto|].
    split; [lia|]. split; [intros H; destruct (H3 H) as (_ & ? & _); lia|].
    intros H. unfold pside. rewrite H. reflexivity.
  - destruct (pside_facts h) as (H1 & H2 & H3); [rewrite E; right; left; auto|].
    split; [lia|]. split; [intros H; destruct (H3 H) as (_ & ? & _); lia|].
    intros H. unfold pside. rewrite H. reflexivity.
Qed.
Lemma dcols_le : dcols p <= gw (geom_of p) /\ (wtype p <> 0%Z -> 1 <= dcols p) /\ (wtype p = 0%Z -> dcols p = gw (geom_of p)).
Proof.
  unfold dcols, geom_of. destruct acc_cases as [(n & E & _)|(w & h & E & _)]; rewrite E; simpl gw.
  - repeat split; lia.
  - destruct (pside_facts w) as (H1 & H2 & H3); [rewrite E; left; auto|].
    split; [lia|]. split; [intros H; destruct (H3 H) as (_ & ? & _); lia|].
    intros H. unfold pside. rewrite H. reflexivity.
Qed.

Context {T : Type} {A : Arith T}.

(** the padded signal as a function *)
Definition padf (m : mat T) (i j : nat) : T :=
  mel a0 m (Nat.min (i - (gh (geom_of p) - drows p) / 2) (drows p - 1))
           (Nat.min (j - (gw (geom_of p) - dcols p) / 2) (dcols p - 1)).

Lemma apm_0 (x : nat -> nat -> T) : apm (geom_of p) x 0 = mk (gh (geom_of p)) (gw (geom_of p)) x.
Proof. unfold apm. rewrite hs_0, ws_0 by apply geom_wf. reflexivity. Qed.

Lemma mk_same r c (s s' : nat -> nat -> T) : r * c = 0 -> mk r c s = mk r c s'.
Proof. intros H. unfold mk. rewrite H. reflexivity. Qed.

Lemma add_padding_acc (m : mat T) : shaped p m ->
  add_padding m (map (pside p) (shape p)) = Ok (apm (geom_of p) (padf m) 0).
Proof.
  intros (W & R & C). unfold add_padding. rewrite rows_cols_padded. cbn [bind fst snd].
  rewrite (mat_eta a0 m W) at 1. rewrite R, C, apm_0.
  destruct drows_le as (H1 & H2 & H3). destruct dcols_le as (H4 & H5 & H6).
  destruct (Nat.eq_dec (drows p * dcols p) 0) as [Ez|Ez].
  - assert (E0 : wtype p = 0%Z).
    { destruct (Z.eq_dec (wtype p) 0); auto. specialize (H2 n). specialize (H5 n). nia. }
    rewrite <- (H3 E0), <- (H6 E0). unfold extend. rewrite rows_mk, cols_mk.
    rewrite guard_true by lia. cbn [bind]. rewrite Ez. cbn [Nat.eqb].
    f_equal. apply mk_same; auto.
  - rewrite extend_mk by nia. reflexivity.
Qed.

Lemma analysis_mat_acc : @analysis_mat T A (wtype p) = Ok (filter_mat (lo_r (wtype p)) (hi_r (wtype p))).
Proof.
  unfold analysis_mat, filters. pose proof acc_type.
  destruct (Z.eqb_spec (wtype p) 0) as [E|E].
  - rewrite E. reflexivity.
  - unfold dbwavf. rewrite guard_true by lia. cbn [bind]. unfold orthfilt. rewrite !rev_involutive. reflexivity.
Qed.
Lemma synthesis_mat_acc : @synthesis_mat T A (wtype p) = Ok (filter_mat (rev (lo_r (wtype p))) (rev (hi_r (wtype p)))).
Proof.
  unfold synthesis_mat, filters. pose proof acc_type.
  destruct (Z.eqb_spec (wtype p) 0) as [E|E].
  - rewrite E. reflexivity.
  - unfold dbwavf. rewrite guard_true by lia. cbn [bind]. reflexivity.
Qed.

Lemma gen_matrices_acc :
  @gen_matrices T A (map (pside p) (shape p)) p =
  Ok (map (fun s => map (fun n => dm (wtype p) (Z.to_nat (pside p n) / 2 ^ s)) (shape p))
          (seq 0 (gK (geom_of p)))).
Proof.
  unfold gen_matrices. rewrite geom_K. apply tabulateM_ok. intros s Hs.
  rewrite <- geom_K in Hs.
  assert (E0 : wtype p <> 0%Z) by (intros E; pose proof (acc_none E); lia).
  rewrite (mapM_ok _ (fun n => dm (wtype p) (Z.to_nat n / 2 ^ s))).
  - rewrite map_map. reflexivity.
  - intros n Hn. apply in_map_iff in Hn as (n0 & <- & Hn0).
    destruct (pside_facts n0 Hn0) as (H1 & H2 & H3). destruct (H3 E0) as (H4 & _).
    rewrite Z2N_div_pow by lia.
    pose proof acc_type.
    apply daubechies_mat_ok; [lia|].
    destruct (side_step (wtype p) (Z.to_nat (steps p)) (Z.to_nat (pside p n0)) s) as (_ & H6); auto; lia.
Qed.

Lemma stack_rd s : s < gK (geom_of p) -> gdim (geom_of p) = 2 ->
  rd (map (fun s => map (fun n => dm (T:=T) (wtype p) (Z.to_nat (pside p n) / 2 ^ s)) (shape p))
          (seq 0 (gK (geom_of p)))) s =
  Ok [dm (gt (geom_of p)) (ws (geom_of p) s); dm (gt (geom_of p)) (hs (geom_of p) s)].
Proof.
  intros Hs Hd. unfold rd. rewrite nth_error_map_seq by auto. f_equal.
  unfold ws, hs. rewrite Hd. cbn [Nat.eqb]. rewrite <- geom_t.
  unfold geom_of in *. destruct acc_cases as [(n & E & _)|(w & h & E & _)]; rewrite E in *; [discriminate|].
  reflexivity.
Qed.

Definition mats_of (p : params) (stack : list (list (smat T))) (dmat : smat T) : nat -> res (list (smat T)) :=
  fun step => if dimension p =? 1 then Ok [dmat] else rd stack step.

Lemma mats_acc :
  exists stack, (if dimension p =? 2 then gen_matrices (map (pside p) (shape p)) p else Ok []) = Ok stack /\
    mats_ok (geom_of p) (mats_of p stack (filter_mat (lo_r (wtype p)) (hi_r (wtype p)))).
Proof.
  unfold mats_ok, mats_of. rewrite geom_dim.
  destruct (gdim_cases _ geom_wf) as [E|E]; rewrite E; cbn [Nat.eqb].
  - exists []. split; [reflexivity|]. intros. rewrite <- geom_t. reflexivity.
  - rewrite gen_matrices_acc. eexists; split; [reflexivity|]. intros s Hs. apply stack_rd; auto.
Qed.

Lemma tmats_acc :
  exists stack, (if dimension p =? 2
                 then let* padded := calc_padded (wtype p) (shape p) (steps p) in gen_trans_matrices padded p
                 else Ok []) = Ok stack /\
    tmats_ok (geom_of p) (mats_of p stack (filter_mat (rev (lo_r (wtype p))) (rev (hi_r (wtype p))))).
Proof.
  unfold tmats_ok, mats_of. rewrite geom_dim.
  destruct (gdim_cases _ geom_wf) as [E|E]; rewrite E; cbn [Nat.eqb].
  - exists []. split; [reflexivity|]. intros. rewrite <- geom_t. reflexivity.
  - rewrite calc_padded_acc. cbn [bind]. unfold gen_trans_matrices. rewrite gen_matrices_acc. cbn [bind].
    eexists; split; [reflexivity|]. intros s Hs.
    unfold rd. rewrite nth_error_map.
    pose proof (stack_rd s Hs E) as H. unfold rd in H.
    destruct (nth_error _ s) as [l|]; [|discriminate]. inversion H. reflexivity.
Qed.

(** ** Decompose *)
Definition dec_of (den : denoiser T) (m : mat T) : decomposition T := dec_pure (geom_of p) den (padf m).

Lemma shape_ok_acc (data : list (mat T)) count :
  1 <= length data -> (dimension p = 2 -> length data = count) ->
  (forall m, nth_error data 0 = Some m -> shaped p m) ->
  shape_ok p data (Z.of_nat count) = Ok true.
Proof.
  intros HL HC HS. unfold shape_ok.
  destruct data as [|d0 data]; simpl in HL; [lia|]. simpl in HS.
  destruct (HS d0 eq_refl) as (W & R & C). unfold drows, dcols in *.
  unfold dimension in *.
  destruct acc_cases as [(n & E & Hn & _)|(w & h & E & Hw & Hh & _)]; rewrite E in *; cbn [length Nat.eqb rd nth_error bind].
  - f_equal. lia.
  - specialize (HC eq_refl). simpl length in HC. rewrite <- HC. rewrite Z.eqb_refl. cbn [negb].
    f_equal. lia.
Qed.

Lemma loop_channels (F : decomposition T -> mat T -> res (decomposition T)) (G : mat T -> decomposition T)
  N (data : list (mat T)) start count (dec : ndecomposition T) :
  (forall d sub, In d data -> length sub = N -> F sub d = Ok (G d)) ->
  start + count <= length dec -> count <= length data ->
  (forall i sub, start <= i < start + count -> nth_error dec i = Some sub -> length sub = N) ->
  loop count start (fun ch dec =>
      let* d := rd data (ch - start) in
      let* sub := rd dec ch in
      let* sub' := F sub d in
      wr dec ch sub') dec
  = Ok (firstn start dec ++ map G (firstn count data) ++ skipn (start + count) dec).
Proof.
  intros HF. revert dec. induction count; intros dec H1 H2 H3.
  - simpl. rewrite Nat.add_0_r, firstn_skipn. reflexivity.
  - rewrite loop_snoc, IHcount by (auto; try lia; intros; eapply H3; eauto; lia).
    cbn [bind].
    replace (start + count - start) with count by lia.
    destruct (nth_error data count) as [d|] eqn:Ed.
    2:{ apply nth_error_None in Ed; lia. }
    rewrite (rd_some _ _ _ Ed). cbn [bind].
    assert (HLf : length (firstn start dec) = start) by (rewrite firstn_length; lia).
    assert (HLm : length (map G (firstn count data)) = count) by (rewrite map_length, firstn_length; lia).
    destruct (nth_error dec (start + count)) as [sub|] eqn:Es.
    2:{ apply nth_error_None in Es; lia. }
    assert (Esk : skipn (start + count) dec = sub :: skipn (start + S count) dec).
    { clear - Es. replace (start + S count) with (S (start + count)) by lia.
      revert dec Es. induction (start + count); intros [|x l] H; simpl in *; try discriminate; try congruence.
      apply IHn; auto. }
    rewrite Esk.
    rewrite app_assoc.
    assert (HLa : length (firstn start dec ++ map G (firstn count data)) = start + count)
      by (rewrite app_length; lia).
    erewrite rd_some by (rewrite nth_error_app2 by lia; rewrite HLa, Nat.sub_diag; reflexivity).
    cbn [bind]. rewrite HF by (eauto using nth_error_In; eapply H3; eauto; lia). cbn [bind].
    rewrite wr_lt by (rewrite app_length; simpl; lia).
    rewrite <- HLa at 1. rewrite upd_app. f_equal. rewrite <- !app_assoc. f_equal.
    assert (Ef : firstn (S count) data = firstn count data ++ [d]).
    { clear - Ed. revert data Ed. induction count; intros [|x l] H; simpl in *; try discriminate; try congruence.
      f_equal. apply IHcount; auto. }
    rewrite Ef, map_app, <- app_assoc. reflexivity.
Qed.

Lemma decompose_impl_acc (dec : ndecomposition T) (data : list (mat T)) den start count :
  1 <= length data -> (dimension p = 2 -> length data = count) -> count <= length data ->
  Forall (shaped p) data ->
  (dimension p = 1 -> forall s l, length (den1 den l s) = length l) ->
  start + count <= length dec ->
  (forall i sub, start <= i < start + count -> nth_error dec i = Some sub -> length sub = decomposition_size p) ->
  decompose_impl p dec data den start count =
  Ok (true, firstn start dec ++ map (dec_of den) (firstn count data) ++ skipn (start + count) dec).
Proof.
  intros HL HC HC2 HS Hden Hr Hsub. unfold decompose_impl, decompose_impl_gen.
  rewrite Forall_forall in HS.
  rewrite shape_ok_acc by (auto; intros; apply HS; eapply nth_error_In; eauto).
  cbn [bind negb]. rewrite calc_padded_acc. cbn [bind].
  destruct mats_acc as (stack & Es & HM). rewrite Es. cbn [bind].
  rewrite analysis_mat_acc. cbn [bind].
  fold (mats_of p stack (filter_mat (lo_r (wtype p)) (hi_r (wtype p)))).
  rewrite (loop_channels (decompose_channel p den (map (pside p) (shape p))
             (mats_of p stack (filter_mat (lo_r (wtype p)) (hi_r (wtype p))))) (dec_of den) (decomposition_size p));
    auto.
  intros d sub Hd Hlen.
  apply decompose_channel_ok; auto.
  - apply geom_wf.
  - apply geom_dim.
  - apply geom_K.
  - apply geom_spw.
  - rewrite Hlen. unfold decomposition_size. rewrite geom_K, geom_spw. reflexivity.
  - rewrite <- geom_dim. auto.
  - apply add_padding_acc. auto.
Qed.

(** ** Compose *)
Definition cropf (k : nat) (x : nat -> nat -> T) : mat T :=
  let r := drows p / 2 ^ k in
  let c := if dimension p =? 1 then 1 else dcols p / 2 ^ k in
  mk r c (fun i j => x ((hs (geom_of p) k - r) / 2 + i) ((ws (geom_of p) k - c) / 2 + j)).

Definition scalem (k : nat) (m : mat T) : mat T :=
  if 0 <? k then Mat (rows m) (cols m) (map (ascale (dimension p) k) (elts m)) else m.

Definition com_of (k : nat) (ch : decomposition T) : mat T :=
  scalem k (cropf k (rc (geom_of p) ch (gK (geom_of p) - k))).

Lemma resize_last (sub : decomposition T) k : 
  length (resize_dec sub (k + 1)) = k + 1.
Proof. unfold resize_dec. rewrite app_length, firstn_length, repeat_length. lia. Qed.

Lemma compose_partial_acc (dec : ndecomposition T) k start count :
  k <= gK (geom_of p) -> start + count <= length dec ->
  (forall i ch, start <= i < start + count -> nth_error dec i = Some ch -> layout (geom_of p) ch) ->
  compose_partial p dec k start count =
  Ok (map (fun ch => upd (resize_dec ch (k * spw p + 1)) (k * spw p)
              (mk (hs (geom_of p) k) (ws (geom_of p) k) (rc (geom_of p) ch (gK (geom_of p) - k))))
          (firstn count (skipn start dec))).
Proof.
  intros Hk Hr HLay. unfold compose_partial, compose_partial_gen.
  destruct tmats_acc as (stack & Es & HM). rewrite Es. cbn [bind].
  rewrite synthesis_mat_acc. cbn [bind].
  fold (mats_of p stack (filter_mat (rev (lo_r (wtype p))) (rev (hi_r (wtype p))))).
  set (G := fun ch => upd (resize_dec ch (k * spw p + 1)) (k * spw p)
              (mk (hs (geom_of p) k) (ws (geom_of p) k) (rc (geom_of p) ch (gK (geom_of p) - k)))).
  rewrite (tabulateM_ok _ _ (fun i => G (nth (start + i) dec []))).
  - f_equal.
    assert (E : firstn count (skipn start dec) = map (fun i => nth (start + i) dec []) (seq 0 count)).
    { rewrite <- (map_seq_nth (firstn count (skipn start dec)) []) at 1.
      assert (HL : length (firstn count (skipn start dec)) = count)
        by (rewrite firstn_length, skipn_length; lia).
      rewrite HL. apply map_ext_in. intros i Hi. apply in_seq in Hi.
      rewrite <- (firstn_skipn count (skipn start dec)) at 2 || idtac.
      transitivity (nth i (skipn start dec) []).
      - rewrite <- (firstn_skipn count (skipn start dec)) at 2. rewrite app_nth1 by lia. reflexivity.
      - rewrite <- (firstn_skipn start dec) at 2.
        rewrite app_nth2 by (rewrite firstn_length; lia). f_equal. rewrite firstn_length; lia. }
    rewrite E, map_map. reflexivity.
  - intros i Hi.
    destruct (nth_error dec (start + i)) as [ch|] eqn:Ech.
    2:{ apply nth_error_None in Ech; lia. }
    rewrite (rd_some _ _ _ Ech). cbn [bind].
    rewrite (compose_channel_ok p (geom_of p)); auto using geom_wf, geom_dim, geom_K, geom_spw.
    2:{ eapply HLay; eauto; lia. }
    cbn [bind]. rewrite resize_last.
    rewrite wr_lt by (rewrite resize_last; lia).
    replace (k * spw p + 1 - 1) with (k * spw p) by lia.
    rewrite (nth_error_nth _ _ _ Ech). reflexivity.
Qed.

Lemma crop_acc k (x : nat -> nat -> T) :
  k <= gK (geom_of p) ->
  crop_padding (mk (hs (geom_of p) k) (ws (geom_of p) k) x)
    (map (fun x => (x / 2 ^ Z.of_nat k)%Z) (shape p)) = Ok (cropf k x).
Proof.
  intros Hk. unfold crop_padding.
  assert (E : rows_cols (map (fun x => (x / 2 ^ Z.of_nat k)%Z) (shape p)) =
     Ok (drows p / 2 ^ k, if dimension p =? 1 then 1 else dcols p / 2 ^ k)).
  { unfold rows_cols, drows, dcols, dimension.
    destruct acc_cases as [(n & E & Hn & _)|(w & h & E & Hw & Hh & _)]; rewrite E;
      cbn [map length Nat.ltb Nat.leb Nat.eqb rd nth_error bind].
    - rewrite Z2N_div_pow by lia. reflexivity.
    - rewrite !Z2N_div_pow by lia. reflexivity. }
  rewrite E. cbn [bind fst snd]. unfold cropf.
  set (r := drows p / 2 ^ k). set (c := if dimension p =? 1 then 1 else dcols p / 2 ^ k).
  assert (P0 : 2 ^ k <> 0) by (apply Nat.pow_nonzero; lia).
  destruct drows_le as (H1 & H2 & H3). destruct dcols_le as (H4 & H5 & H6).
  assert (Hr : r <= hs (geom_of p) k) by (apply Nat.div_le_mono; auto).
  assert (Hc : c <= ws (geom_of p) k).
  { unfold c, ws. rewrite geom_dim. destruct (gdim (geom_of p) =? 1); auto. apply Nat.div_le_mono; auto. }
  destruct (Z.eq_dec (wtype p) 0) as [E0|E0].
  - assert (gK (geom_of p) = 0) by (rewrite <- geom_K, (acc_none E0); reflexivity).
    assert (k = 0) by lia. subst k. rewrite hs_0, ws_0 by apply geom_wf.
    assert (Er : r = gh (geom_of p)) by (unfold r; rewrite Nat.pow_0_r, Nat.div_1_r; auto).
    assert (Ec : c = gw (geom_of p)).
    { unfold c. rewrite geom_dim. pose proof (H6 E0). destruct (Nat.eqb_spec (gdim (geom_of p)) 1) as [Ed|Ed].
      - destruct geom_wf as ([[_ ?]|?]&_); lia.
      - rewrite Nat.pow_0_r, Nat.div_1_r; auto. }
    rewrite Er, Ec. unfold crop. rewrite rows_mk, cols_mk.
    rewrite guard_true by lia. cbn [bind].
    destruct (Nat.eqb_spec (gh (geom_of p) * gw (geom_of p)) 0) as [Ez|Ez].
    + f_equal. apply mk_same; auto.
    + cbn [is_both]. rewrite !Nat.sub_diag. change (0 / 2) with 0. rewrite msub_mk by lia. reflexivity.
  - (* every side holds at least 2^k samples *)
    assert (HS : forall n, In n (shape p) -> 1 <= Z.to_nat n / 2 ^ k).
    { intros n Hn. pose proof (acc_fit E0) as Hf. rewrite Forall_forall in Hf. specialize (Hf n Hn).
      pose proof acc_steps. pose proof acc_type.
      apply Nat.div_le_lower_bound; auto. rewrite Nat.mul_1_r.
      assert (2 ^ k <= 2 ^ Z.to_nat (steps p)) by (apply Nat.pow_le_mono_r; rewrite ?geom_K; lia).
      rewrite <- (Z2N_pow (steps p)) in H7 by lia.
      assert (0 < 2 ^ steps p)%Z by (apply Z.pow_pos_nonneg; lia). nia. }
    assert (1 <= r).
    { unfold r, drows. destruct acc_cases as [(n & En & _)|(w & h & En & _)]; rewrite En in *; apply HS; simpl; auto. }
    assert (1 <= c).
    { unfold c, dcols, dimension. destruct acc_cases as [(n & En & _)|(w & h & En & _)]; rewrite En in *;
        cbn [length Nat.eqb]; auto. apply HS; simpl; auto. }
    rewrite crop_mk by auto. reflexivity.
Qed.

Lemma compose_impl_acc (dec : ndecomposition T) k start count :
  k <= gK (geom_of p) -> start + count <= length dec ->
  (forall i ch, start <= i < start + count -> nth_error dec i = Some ch -> layout (geom_of p) ch) ->
  compose_impl p dec k start count =
  Ok (true, map (com_of k) (firstn count (skipn start dec))).
Proof.
  intros Hk Hr HLay. unfold compose_impl, compose_impl_gen.
  change (compose_partial_gen gen_trans_matrices) with (@compose_partial T A).
  rewrite compose_partial_acc by auto. cbn [bind].
  assert (E : forall l : ndecomposition T,
    mapM (fun sub =>
      let* aprox := rd sub (length sub - 1) in
      let* aprox := crop_padding aprox (map (fun x => (x / 2 ^ Z.of_nat k)%Z) (shape p)) in
      Ok (if 0 <? k
          then Mat (rows aprox) (cols aprox) (map (ascale (dimension p) k) (elts aprox))
          else aprox))
     (map (fun ch => upd (resize_dec ch (k * spw p + 1)) (k * spw p)
              (mk (hs (geom_of p) k) (ws (geom_of p) k) (rc (geom_of p) ch (gK (geom_of p) - k)))) l)
     = Ok (map (com_of k) l)).
  { induction l as [|ch l IH]; [reflexivity|]. cbn [map mapM].
    rewrite upd_length, resize_last.
    rewrite (rd_some _ _ (mk (hs (geom_of p) k) (ws (geom_of p) k) (rc (geom_of p) ch (gK (geom_of p) - k)))).
    2:{ replace (k * spw p + 1 - 1) with (k * spw p) by lia.
        apply upd_nth_eq. rewrite resize_last; lia. }
    cbn [bind]. rewrite crop_acc by auto. cbn [bind]. rewrite IH. cbn [bind]. reflexivity. }
  rewrite E. reflexivity.
Qed.

End Acc.
