(** * P_Equal: comparison, CompressedSize, acceptance of data, scale factors
    beyond the steps *)
Require Import List Bool Arith ZArith Lia.
Require Import ZifyBool.
Require Import Verif.M_Base Verif.M_Params Verif.M_Padding Verif.M_Wavelet Verif.M_Buffer Verif.M_Equal.
Require Import Verif.S_Params Verif.S_Buffer Verif.S_Equal Verif.P_Base Verif.P_Params Verif.P_Padding Verif.P_Wavelet
  Verif.P_Buffer Verif.P_Impl Verif.P_Api Verif.P_Api2 Verif.P_Metrics.
Import ListNotations.
Open Scope nat_scope.

(** ** Comparison *)
Lemma vec_eqb_iff {A} (e : A -> A -> bool) (R : A -> A -> Prop) :
  (forall x y, e x y = true <-> R x y) ->
  forall a b, vec_eqb e a b = true <-> Forall2 R a b.
Proof.
  intros HR a; induction a as [|x a IH]; intros [|y b]; cbn [vec_eqb]; split; intros H;
    try discriminate; try solve [constructor]; try solve [inversion H].
  - apply andb_true_iff in H as [H1 H2]. constructor; [apply HR; auto|apply IH; auto].
  - inversion H; subst. apply andb_true_iff. split; [apply HR; auto|apply IH; auto].
Qed.

Section Eq.
Context {T : Type}.
Variable eq : T -> T -> bool.
Let R x y := eq x y = true.

Lemma mat_eqb_iff (m n : mat T) : mat_eqb eq m n = true <-> same_shape_related R m n.
Proof.
  unfold mat_eqb, same_shape_related. rewrite !andb_true_iff, !Nat.eqb_eq.
  rewrite (vec_eqb_iff eq R) by reflexivity. tauto.
Qed.

Lemma buffer_eqb_iff (a b : buffer T) : buffer_eqb eq a b = true <-> related R a b.
Proof.
  unfold buffer_eqb, related. rewrite andb_true_iff, params_eqb_eq.
  rewrite (vec_eqb_iff (vec_eqb (mat_eqb eq)) (Forall2 (same_shape_related R))); [tauto|].
  apply vec_eqb_iff. apply mat_eqb_iff.
Qed.

Lemma Forall2_refl {A} (Q : A -> A -> Prop) l : Forall2 Q l l <-> forall x, In x l -> Q x x.
Proof.
  induction l as [|x l IH]; split; intros H.
  - intros ? [].
  - constructor.
  - inversion H; subst. intros y [<-|Hy]; auto. apply IH; auto.
  - constructor; [apply H; left; auto|]. apply IH. intros; apply H; right; auto.
Qed.

Lemma eq_refl_iff (b : buffer T) : buffer_eqb eq b b = true <-> forall x, holds b x -> eq x x = true.
Proof.
  rewrite buffer_eqb_iff. unfold related. split.
  - intros (_ & H) x (ch & m & H1 & H2 & H3).
    pose proof (proj1 (Forall2_refl _ _) H ch H1) as H'.
    destruct (proj1 (Forall2_refl _ _) H' m H2) as (_ & _ & Hm). apply (proj1 (Forall2_refl _ _) Hm x H3).
  - intros H. split; [reflexivity|]. apply Forall2_refl. intros ch Hc. apply Forall2_refl. intros m Hm.
    split; [reflexivity|]. split; [reflexivity|]. apply Forall2_refl. intros x Hx. apply H. exists ch, m. auto.
Qed.

Lemma Forall2_flip {A} (Q Q' : A -> A -> Prop) : (forall x y, Q x y -> Q' y x) ->
  forall l l', Forall2 Q l l' -> Forall2 Q' l' l.
Proof. intros HQ l l' H. induction H; constructor; auto. Qed.

Lemma related_sym (Q : T -> T -> Prop) (HQ : forall x y, Q x y -> Q y x) (a b : buffer T) : related Q a b -> related Q b a.
Proof.
  intros (E & H). split; [auto|]. revert H. apply Forall2_flip. intros x y. apply Forall2_flip.
  intros m n (E1 & E2 & E3). repeat split; auto. revert E3. apply Forall2_flip. exact HQ.
Qed.

Lemma eq_sym_holds (Hs : forall x y, eq x y = eq y x) (a b : buffer T) : buffer_eqb eq a b = buffer_eqb eq b a.
Proof.
  destruct (buffer_eqb eq a b) eqn:E1, (buffer_eqb eq b a) eqn:E2; auto.
  - apply buffer_eqb_iff in E1. apply related_sym in E1; [|unfold R; intros; rewrite Hs; auto].
    apply buffer_eqb_iff in E1. congruence.
  - apply buffer_eqb_iff in E2. apply related_sym in E2; [|unfold R; intros; rewrite Hs; auto].
    apply buffer_eqb_iff in E2. congruence.
Qed.
End Eq.

(** ** CompressedSize *)
Section Size.
Context {T : Type}.
Variable isz : T -> bool.
Let nz x := negb (isz x).
Open Scope Z_scope.

Lemma inner_size (dec : list (mat T)) (s : Z) :
  fold_left (fun s m => to_size (s + 4 * Z.of_nat (length (filter nz (elts m))))) dec (to_size s)
  = to_size (s + 4 * Z.of_nat (length (filter nz (concat (map (@elts T) dec))))).
Proof.
  revert s; induction dec as [|m dec IH]; intros s; cbn [fold_left map concat].
  - f_equal. cbn. lia.
  - rewrite filter_app, app_length, Nat2Z.inj_add.
    replace (to_size (to_size s + 4 * Z.of_nat (length (filter nz (elts m)))))
      with (to_size (s + 4 * Z.of_nat (length (filter nz (elts m))))).
    + rewrite IH. f_equal. lia.
    + unfold to_size. rewrite Zplus_mod_idemp_l. reflexivity.
Qed.

Lemma to_int32_eqm a b : a mod 2 ^ 32 = b mod 2 ^ 32 -> to_int32 a = to_int32 b.
Proof. intros H. unfold to_int32. f_equal. rewrite <- Zplus_mod_idemp_l, H, Zplus_mod_idemp_l. reflexivity. Qed.
Lemma to_int32_mod a : to_int32 a mod 2 ^ 32 = a mod 2 ^ 32.
Proof. unfold to_int32. rewrite Zminus_mod_idemp_l. f_equal. lia. Qed.
Lemma to_size_mod32 a : to_size a mod 2 ^ 32 = a mod 2 ^ 32.
Proof.
  unfold to_size. change (2 ^ 64) with (2 ^ 32 * 2 ^ 32).
  rewrite Z.rem_mul_r by lia. rewrite Z.add_mod by lia. rewrite (Z.mul_comm (2 ^ 32)), Z.mod_mul by lia.
  rewrite Z.add_0_r, !Z.mod_mod by lia. reflexivity.
Qed.

Lemma compressed_size_eq (b : buffer T) :
  compressed_size isz b = to_size (to_int32 (4 * Z.of_nat (count_in nz b))).
Proof.
  unfold compressed_size, count_in. f_equal. rename b into bb. destruct bb as [p dec]; cbn [bdec].
  assert (G : forall dec a, fold_left
     (fun acc dec => to_int32 (fold_left
         (fun s m => to_size (s + 4 * Z.of_nat (length (filter nz (elts m)))))
         dec (to_size acc))) dec (to_int32 a)
     = to_int32 (a + 4 * Z.of_nat (length (filter nz (concat (map (@elts T) (concat dec))))))).
  { clear. induction dec as [|d dec IH]; intros a; cbn [fold_left concat].
    - cbn [map concat filter length]. f_equal. lia.
    - rewrite inner_size. 
      rewrite (to_int32_eqm (to_size (to_int32 a + _)) (a + 4 * Z.of_nat (length (filter nz (concat (map (@elts T) d)))))).
      + rewrite IH. f_equal. rewrite map_app, concat_app, filter_app, app_length, Nat2Z.inj_add. lia.
      + rewrite to_size_mod32. rewrite <- Zplus_mod_idemp_l, to_int32_mod, Zplus_mod_idemp_l. reflexivity. }
  specialize (G dec 0). change (to_int32 0) with 0 in G. unfold nz in G. rewrite G. unfold nz. f_equal.
Qed.

Lemma compressed_size_small (b : buffer T) :
  4 * Z.of_nat (count_in nz b) < 2 ^ 31 -> compressed_size isz b = 4 * Z.of_nat (count_in nz b).
Proof.
  intros H. rewrite compressed_size_eq. set (n := 4 * _) in *. assert (0 <= n) by lia.
  unfold to_int32, to_size. rewrite (Z.mod_small (n + _)) by lia. rewrite Z.mod_small by lia. lia.
Qed.

Lemma compressed_size_big (b : buffer T) :
  2 ^ 31 <= 4 * Z.of_nat (count_in nz b) < 2 ^ 64 - 2 ^ 31 -> compressed_size isz b <> 4 * Z.of_nat (count_in nz b).
Proof.
  intros H. rewrite compressed_size_eq. set (n := 4 * _) in *.
  unfold to_int32, to_size. pose proof (Z.mod_pos_bound (n + 2 ^ 31) (2 ^ 32) eq_refl).
  set (r := (n + 2 ^ 31) mod 2 ^ 32) in *.
  destruct (Z_lt_le_dec r (2 ^ 31)).
  - replace ((r - 2 ^ 31) mod 2 ^ 64) with (r - 2 ^ 31 + 2 ^ 64); [lia|].
    symmetry. rewrite <- (Z.mod_add _ 1) by lia. apply Z.mod_small. lia.
  - rewrite Z.mod_small by lia. lia.
Qed.
End Size.

(** ** Decompose's acceptance test *)
Section Accept.
Context {T : Type} {A : Arith T}.
Variable p : params.
Hypothesis HA : accepted p.

Lemma impl_result (dec : ndecomposition T) data den start count r dec' :
  decompose_impl p dec data den start count = Ok (r, dec') ->
  shape_ok p data (Z.of_nat count) = Ok r /\ (r = false -> dec' = dec).
Proof.
  unfold decompose_impl, decompose_impl_gen. intros H. apply bind_ok in H as (ok & E & H). rewrite E.
  destruct ok; cbn [negb] in H.
  - do 4 (apply bind_ok in H as (? & _ & H)). inversion H; subst. split; [auto|discriminate].
  - inversion H; subst. auto.
Qed.

Lemma shape_ok_iff (data : list (mat T)) count r :
  shape_ok p data (Z.of_nat count) = Ok r ->
  (r = true <-> ((is_1d p = false -> length data = count) /\ first_fits p data)).
Proof.
  unfold shape_ok, first_fits, is_1d, dimension, drows, dcols.
  destruct (acc_cases p HA) as [(n & E & Hn & _)|(w & h & E & Hw & Hh & _)]; rewrite E;
    cbn [length Nat.eqb nth_error bind rd]; intros H.
  - destruct data as [|d data]; cbn [rd nth_error bind] in H; [discriminate|].
    inversion H; subst; clear H. split.
    + intros HH. split; [discriminate|]. exists d, data. split; [auto|]. split; [lia|discriminate].
    + intros (_ & d' & rest & E1 & E2 & _). inversion E1; subst. lia.
  - destruct (Z.eqb_spec (Z.of_nat (length data)) (Z.of_nat count)) as [Ec|Ec]; cbn [negb] in H.
    + destruct data as [|d data]; cbn [rd nth_error bind] in H; [discriminate|].
      inversion H; subst; clear H. split.
      * intros HH. split; [lia|]. exists d, data. split; [auto|]. split; lia.
      * intros (_ & d' & rest & E1 & E2 & E3). inversion E1; subst. specialize (E3 eq_refl). lia.
    + inversion H; subst. split; [discriminate|]. intros (H1 & _). specialize (H1 eq_refl). lia.
Qed.

Lemma decompose_verdict (b : buffer T) data den r b' :
  bpar b = p -> decompose b data den = Ok (r, b') ->
  (r = true <-> ((is_1d p = false -> Z.of_nat (length data) = signum p) /\ first_fits p data)) /\
  (r = false -> b' = b).
Proof.
  intros Eb H. unfold decompose in H. rewrite Eb in H. apply bind_ok in H as ((r' & dec') & H & E).
  cbn [fst snd] in E. assert (r' = r /\ Buffer p dec' = b') as [-> <-] by (split; congruence). clear E.
  apply impl_result in H as [H1 H2]. pose proof (shape_ok_iff _ _ _ H1) as H3. split.
  - rewrite H3. pose proof (acc_signum _ HA).
    assert (forall n, n = Z.to_nat (signum p) <-> Z.of_nat n = signum p) as G by lia.
    rewrite G. tauto.
  - intros ->. rewrite H2 by auto. rewrite <- Eb. destruct b; reflexivity.
Qed.

(** a refusal never fails *)
Lemma decompose_refuses (b : buffer T) data den :
  bpar b = p -> data <> [] -> ~ ((is_1d p = false -> Z.of_nat (length data) = signum p) /\ first_fits p data) ->
  decompose b data den = Ok (false, b).
Proof.
  intros Eb Hd Hn. unfold decompose. rewrite Eb.
  assert (E : exists r, shape_ok p data (Z.of_nat (Z.to_nat (signum p))) = Ok r).
  { destruct data as [|d data]; [congruence|]. unfold shape_ok, dimension.
    destruct (acc_cases p HA) as [(n & E & Hn' & _)|(w & h & E & Hw & Hh & _)]; rewrite E;
      cbn [length Nat.eqb rd nth_error bind]; [eexists; reflexivity|].
    destruct (negb _); eexists; reflexivity. }
  destruct E as (r & E). pose proof (shape_ok_iff _ _ _ E) as H3.
  assert (r = false) as ->.
  { destruct r; auto. exfalso. apply Hn. destruct (proj1 H3 eq_refl) as [G1 G2]. split; auto.
    intros G3. specialize (G1 G3). pose proof (acc_signum _ HA). lia. }
  unfold decompose_impl, decompose_impl_gen. rewrite E. cbn [bind negb fst snd]. destruct b; cbn in *; subst; reflexivity.
Qed.

(** 1D: signals beyond the declared number are not looked at *)
Lemma decompose_extra (b : buffer T) data extra den :
  bpar b = p -> is_1d p = true -> data <> [] -> (signum p <= Z.of_nat (length data))%Z ->
  decompose b (data ++ extra) den = decompose b data den.
Proof.
  intros Eb H1 Hd Hs. unfold decompose. rewrite Eb.
  assert (Hdim : dimension p = 1) by (unfold is_1d, dimension in *; lia).
  unfold decompose_impl, decompose_impl_gen, shape_ok. rewrite Hdim. cbn [Nat.eqb].
  destruct data as [|d data]; [congruence|]. cbn [app].
  change (rd (d :: data ++ extra) 0) with (rd (d :: data) 0).
  match goal with |- bind (bind ?x _) _ = _ => destruct x as [ok| |] end; cbn [bind]; auto.
  destruct (negb ok); auto.
  destruct (calc_padded (wtype p) (shape p) (steps p)); auto. cbn [bind].
  destruct (analysis_mat (wtype p)); auto. cbn [bind].
  match goal with |- bind (bind ?x _) _ = bind (bind ?y _) _ => replace x with y; [reflexivity|] end.
  apply loop_ext. intros i s Hi. cbn [Nat.add].
  replace (rd (d :: data ++ extra) (i - 0)) with (rd (d :: data) (i - 0)); [reflexivity|].
  unfold rd. change (d :: data ++ extra) with ((d :: data) ++ extra).
  rewrite nth_error_app1; auto. pose proof (acc_signum _ HA). cbn [length] in *. lia.
Qed.

(** 1D: too few signals *)
Lemma decompose_missing (b : buffer T) data den :
  bpar b = p -> is_1d p = true -> Z.of_nat (length (bdec b)) = signum p ->
  (forall ch, In ch (bdec b) -> length ch = decomposition_size p) ->
  data <> [] -> Forall (shaped p) data -> (Z.of_nat (length data) < signum p)%Z ->
  (forall s l, length (den1 den l s) = length l) ->
  decompose b data den = UB.
Proof.
  intros Eb H1 HL Hlen Hd HS Hs Hden.
  assert (Hdim : dimension p = 1) by (unfold is_1d, dimension in *; lia).
  assert (Hd1 : 1 <= length data) by (destruct data; [congruence|cbn; lia]).
  pose proof (decompose_impl_acc p HA (bdec b) data den 0 (length data) Hd1
    ltac:(intros; lia) (le_n _) HS (fun _ => Hden) ltac:(lia)
    ltac:(intros i sub _ Hi; apply Hlen; eapply nth_error_In; eauto)) as Hok.
  assert (E : exists m, Z.to_nat (signum p) = length data + S m)
    by (exists (Z.to_nat (signum p) - length data - 1); lia).
  destruct E as (m & Em).
  unfold decompose. rewrite Eb, Em. unfold decompose_impl, decompose_impl_gen in *.
  rewrite shape_ok_acc in *; auto; try lia; try (intros x Hx; rewrite Forall_forall in HS; apply HS; eapply nth_error_In; eauto).
  cbn [bind negb] in *.
  destruct (calc_padded (wtype p) (shape p) (steps p)) as [padded| |]; cbn [bind] in *; try discriminate.
  rewrite Hdim in *. cbn [Nat.eqb bind] in *.
  destruct (analysis_mat (wtype p)) as [dm| |]; cbn [bind] in *; try discriminate.
  rewrite loop_app. 
  match goal with |- context [bind (loop (length data) 0 ?f ?s) _] => destruct (loop (length data) 0 f s) as [dec'| |] end;
    cbn [bind] in *; try discriminate.
  cbn [loop]. replace (0 + length data - 0) with (length data) by lia.
  unfold rd at 1. rewrite (proj2 (nth_error_None data (length data))) by lia. reflexivity.
Qed.

(** ** Scale factors beyond the steps *)
Lemma div_pow_le n i j : i <= j -> n / 2 ^ j <= n / 2 ^ i.
Proof.
  intros H. apply Nat.div_le_compat_l. split; [apply Nat.neq_0_lt_0, Nat.pow_nonzero; lia|].
  apply Nat.pow_le_mono_r; lia.
Qed.
Lemma le_round_up k n : n <= round_up k n.
Proof.
  unfold round_up. assert (0 < 2 ^ k) by (apply Nat.neq_0_lt_0, Nat.pow_nonzero; lia).
  pose proof (Nat.div_mod (n + 2 ^ k - 1) (2 ^ k) ltac:(lia)).
  pose proof (Nat.mod_upper_bound (n + 2 ^ k - 1) (2 ^ k) ltac:(lia)). lia.
Qed.

Lemma crop_beyond k (a : mat T) :
  nsteps p < k -> sized (level_rows p (nsteps p)) (level_cols p (nsteps p)) a ->
  exists m, crop_padding a (map (fun x => (x / 2 ^ Z.of_nat k)%Z) (shape p)) = Ok m /\
    beyond p k a (Mat (rows m) (cols m) (map (ascale (dimension p) k) (elts m))).
Proof.
  intros Hk (W & Hr & Hc). unfold crop_padding.
  assert (E : rows_cols (map (fun x => (x / 2 ^ Z.of_nat k)%Z) (shape p)) =
     Ok (drows p / 2 ^ k, if is_1d p then 1 else dcols p / 2 ^ k)).
  { unfold rows_cols, drows, dcols, is_1d.
    destruct (acc_cases p HA) as [(n & E & Hn & _)|(w & h & E & Hw & Hh & _)]; rewrite E;
      cbn [map length Nat.ltb Nat.leb Nat.eqb rd nth_error bind].
    - rewrite Z2N_div_pow by lia. reflexivity.
    - rewrite !Z2N_div_pow by lia. reflexivity. }
  rewrite E. cbn [bind fst snd]. unfold beyond.
  set (r := drows p / 2 ^ k). set (c := if is_1d p then 1 else dcols p / 2 ^ k).
  assert (G : forall n, n / 2 ^ k <= round_up (nsteps p) n / 2 ^ nsteps p).
  { intros n. transitivity (n / 2 ^ nsteps p); [apply div_pow_le; lia|].
    apply Nat.div_le_mono; [apply Nat.pow_nonzero; lia|apply le_round_up]. }
  assert (Hr' : r <= rows a) by (rewrite Hr; apply G).
  assert (Hc' : c <= cols a) by (rewrite Hc; unfold c, level_cols; destruct (is_1d p); [lia|apply G]).
  destruct (Nat.eqb_spec r 0) as [R0|R0]; cbn [orb]; [|destruct (Nat.eqb_spec c 0) as [C0|C0]; cbn [orb]].
  - exists a. split; [|reflexivity]. unfold crop. rewrite guard_true by lia. cbn [bind].
    rewrite R0. reflexivity.
  - exists a. split; [|reflexivity]. unfold crop. rewrite guard_true by lia. cbn [bind].
    rewrite C0, Nat.mul_0_r. reflexivity.
  - destruct (mat_inhabited a W) as [d _]; [lia|lia|].
    assert (Ea : crop r c kBoth a = Ok (mk r c (fun i j => mel d a (pad_top kBoth (rows a) r + i) (pad_top kBoth (cols a) c + j)))).
    { rewrite (mat_eta d a W) at 1. apply crop_mk; lia. }
    rewrite Ea. eexists; split; [reflexivity|].
    match goal with |- middle_of ?f r c a (Mat _ _ (map _ (elts (mk _ _ ?g)))) =>
      replace (Mat _ _ _) with (mk r c (fun i j => f (g i j))) end.
    + split; [split; [apply mk_wf|split; reflexivity]|]. split; [auto|]. split; [auto|].
      intros i j Hi Hj. exists (mel d a ((rows a - r) / 2 + i) ((cols a - c) / 2 + j)). split.
      * rewrite (mat_eta d a W) at 1. rewrite mget_mk; [reflexivity| |].
        -- pose proof (Nat.div_le_upper_bound (rows a - r) 2 (rows a - r) ltac:(lia) ltac:(lia)). 
           pose proof (Nat.mul_div_le (rows a - r) 2 ltac:(lia)). lia.
        -- pose proof (Nat.mul_div_le (cols a - c) 2 ltac:(lia)). lia.
      * rewrite mget_mk by auto. reflexivity.
    + unfold mk. cbn [rows cols elts]. rewrite map_map. reflexivity.
Qed.

Lemma compose_beyond (b : buffer T) sf :
  bpar b = p -> Z.of_nat (length (bdec b)) = signum p ->
  (forall ch, In ch (bdec b) -> has_layout p ch) -> (steps p < sf)%Z ->
  exists out, compose b sf = Ok (true, out) /\
    Forall2 (fun ch m => exists a, nth_error ch (nsteps p * bands p) = Some a /\ beyond p (Z.to_nat sf) a m) (bdec b) out.
Proof.
  intros Eb HL HLay Hsf. pose proof (acc_steps p HA) as Hst.
  unfold compose, scale_arg. destruct (Z.ltb_spec sf 0); [lia|]. cbn [bind]. rewrite Eb.
  set (k := Z.to_nat sf). assert (Hk : nsteps p < k) by (unfold k, nsteps; lia).
  unfold compose_impl, compose_impl_gen. 
  destruct (tmats_acc p HA) as (stack & Es & _).
  assert (Hspw : spw p = bands p) by (rewrite geom_spw, spw_bands; auto).
  assert (E1 : compose_partial_gen gen_trans_matrices p (bdec b) k 0 (Z.to_nat (signum p)) =
    Ok (map (fun ch => upd (resize_dec ch (k * spw p + 1)) (k * spw p) (nth (nsteps p * bands p) ch mempty)) (bdec b))).
  { unfold compose_partial_gen. rewrite Es. cbn [bind]. rewrite synthesis_mat_acc by auto. cbn [bind].
    rewrite (tabulateM_ok _ _ (fun i => (fun ch => upd (resize_dec ch (k * spw p + 1)) (k * spw p) (nth (nsteps p * bands p) ch mempty)) (nth i (bdec b) []))).
    - f_equal. replace (Z.to_nat (signum p)) with (length (bdec b)) by lia.
      rewrite <- (map_map (fun i => nth i (bdec b) [])
        (fun ch => upd (resize_dec ch (k * spw p + 1)) (k * spw p) (nth (nsteps p * bands p) ch mempty))).
      rewrite map_seq_nth. reflexivity.
    - intros i Hi. cbn [Nat.add]. destruct (nth_error (bdec b) i) as [ch|] eqn:Ech.
      2:{ apply nth_error_None in Ech; lia. }
      rewrite (rd_some _ _ _ Ech). cbn [bind]. rewrite (nth_error_nth _ _ _ Ech).
      destruct (HLay ch ltac:(eapply nth_error_In; eauto)) as (Hl & _).
      unfold compose_channel. fold (nsteps p). replace (nsteps p - k) with 0 by lia. rewrite Hspw.
      rewrite (rd_nth ch _ mempty) by lia. cbn [bind loop]. rewrite resize_last.
      rewrite wr_lt by (rewrite resize_last; lia). replace (k * bands p + 1 - 1) with (k * bands p) by lia. reflexivity. }
  rewrite E1. cbn [bind]. clear E1.
  assert (G : forall l, (forall ch, In ch l -> has_layout p ch) -> exists out,
    mapM (fun sub =>
      let* aprox := rd sub (length sub - 1) in
      let* aprox := crop_padding aprox (map (fun x => (x / 2 ^ Z.of_nat k)%Z) (shape p)) in
      Ok (if 0 <? k
          then Mat (rows aprox) (cols aprox) (map (ascale (dimension p) k) (elts aprox))
          else aprox))
     (map (fun ch => upd (resize_dec ch (k * spw p + 1)) (k * spw p) (nth (nsteps p * bands p) ch mempty)) l) = Ok out /\
    Forall2 (fun ch m => exists a, nth_error ch (nsteps p * bands p) = Some a /\ beyond p k a m) l out).
  { induction l as [|ch l IH]; intros HLl.
    - exists []. split; [reflexivity|constructor].
    - destruct (HLl ch (or_introl eq_refl)) as (Hl & _ & Ha).
      destruct (nth_error ch (nsteps p * bands p)) as [a|] eqn:Ea.
      2:{ apply nth_error_None in Ea; lia. }
      destruct (crop_beyond k a Hk (Ha a eq_refl)) as (m & E1 & E2).
      destruct IH as (out & E3 & E4); [intros; apply HLl; right; auto|].
      cbn [map mapM]. rewrite upd_length, resize_last.
      rewrite (rd_some _ _ a).
      2:{ replace (k * spw p + 1 - 1) with (k * spw p) by lia. rewrite (nth_error_nth _ _ _ Ea).
          apply upd_nth_eq. rewrite resize_last; lia. }
      cbn [bind]. rewrite E1. cbn [bind]. rewrite E3. cbn [bind].
      destruct (Nat.ltb_spec 0 k); [|lia].
      eexists. split; [reflexivity|]. constructor; auto. exists a. auto. }
  destruct (G (bdec b) HLay) as (out & E1 & E2). rewrite E1. cbn [bind]. exists out. auto.
Qed.
End Accept.

(** ** The amplitude of a constant signal beyond the steps *)
Require Import Reals Lra.
Require Import Verif.M_Real Verif.S_Exact Verif.P_Exact.
Section Beyond.
Local Existing Instance exactR.
Open Scope R_scope.

Lemma mget_elts {X} (m : mat X) k x : mwf m -> nth_error (elts m) k = Some x ->
  exists i j, (i < rows m)%nat /\ (j < cols m)%nat /\ mget m i j = Ok x.
Proof.
  intros W H. assert (k < length (elts m))%nat by (apply nth_error_Some; congruence).
  rewrite W in H0. destruct (idx_inv k (rows m) (cols m) H0) as (H1 & H2 & E).
  exists (k / cols m)%nat, (k mod cols m)%nat. split; [auto|]. split; [auto|].
  rewrite (mget_wf m _ _ x); auto. rewrite <- E. f_equal. apply nth_error_nth. auto.
Qed.

Lemma constant_middle v f r c (a m : mat R) : constant v a -> middle_of f r c a m -> constant (f v) m.
Proof.
  intros Ha ((W & Er & Ec) & _ & _ & H). apply Forall_forall. intros x Hx.
  apply In_nth_error in Hx as (k & Hk). apply mget_elts in Hk as (i & j & Hi & Hj & E); auto.
  destruct (H i j) as (y & Hy & Hm); [lia|lia|]. rewrite E in Hm. inversion Hm; subst.
  f_equal. unfold constant in Ha. rewrite Forall_forall in Ha. symmetry. symmetry. apply Ha.
  unfold mget in Hy. destruct (_ && _); [|discriminate]. unfold rd in Hy.
  destruct (nth_error (elts a) _) eqn:En; [|discriminate]. inversion Hy; subst. eapply nth_error_In; eauto.
Qed.

Lemma beyond_amplitude p (HA : accepted p) (b b' : buffer R) data v sf :
  wtype p = 1%Z -> reachable p b ->
  (1 <= signum p)%Z -> Z.of_nat (length data) = signum p -> Forall (shaped p) data ->
  decompose b data null_denoiser = Ok (true, b') -> (steps p < sf)%Z ->
  exists out, compose b' sf = Ok (true, out) /\ length out = length data /\
    forall c m o, nth_error data c = Some m -> constant v m -> nth_error out c = Some o ->
      constant (v / (if is_1d p then sqrt 2 else 2) ^ (Z.to_nat sf - nsteps p)) o.
Proof.
  intros Ht HR Hs HL HS HD Hsf.
  destruct (layout_after_decompose p b data null_denoiser HA HR null_keeps Hs HL HS) as (b1 & HD1 & HL1 & HLay).
  rewrite HD in HD1. assert (b1 = b') by congruence. subst b1. clear HD1.
  assert (Eb : bpar b' = p).
  { destruct (reachable_weak p b' HA) as (E & _); auto.
    eapply reach_decompose; [exact HR| | |exact HD]; [eapply shaped_mwf; eauto|apply null_keeps]. }
  destruct (compose_beyond p HA b' sf Eb HL1 ltac:(rewrite Forall_forall in HLay; exact HLay) Hsf) as (out & E1 & E2).
  exists out. split; [auto|]. assert (Hlen : length out = length data).
  { apply Nat2Z.inj. rewrite HL, <- HL1. f_equal. symmetry. exact (Forall2_len _ _ _ E2). }
  split; [exact Hlen|].
  intros c m o Hm Hc Ho.
  destruct (nth_error (bdec b') c) as [ch|] eqn:Ech.
  2:{ apply nth_error_None in Ech. assert (c < length data)%nat by (apply nth_error_Some; congruence).
      assert (length (bdec b') = length data) by (apply Nat2Z.inj; congruence). exfalso. apply (Nat.lt_irrefl c).
      eapply Nat.lt_le_trans; [eassumption|]. etransitivity; [|exact Ech]. apply Nat.eq_le_incl. symmetry. assumption. }
  destruct (constant_details p HA b b' data v c m ch) as (det & a & Ec & Ed & _ & Ha); auto.
  pose proof (Forall2_nth_error _ _ _ E2 c ch o Ech Ho) as (a' & Ea & Hb).
  rewrite Ec, nth_error_app2 in Ea by lia. rewrite Ed, Nat.sub_diag in Ea. cbn in Ea. inversion Ea; subst a'; clear Ea.
  assert (Hval : forall x, x = v * (if is_1d p then sqrt 2 else 2) ^ nsteps p ->
     ascale (dimension p) (Z.to_nat sf) x = v / (if is_1d p then sqrt 2 else 2) ^ (Z.to_nat sf - nsteps p)).
  { intros x ->. cbn [ascale exactR].
    assert (Eg : (if Nat.eqb (dimension p) 2 then 2 else sqrt 2) = (if is_1d p then sqrt 2 else 2)).
    { unfold is_1d, dimension. destruct (acc_cases p HA) as [(n & E & _)|(w & h & E & _)]; rewrite E; reflexivity. }
    rewrite Eg. set (g := if is_1d p then sqrt 2 else 2).
    assert (Hg : g <> 0). { unfold g. destruct (is_1d p); [|lra]. pose proof (sqrt_lt_R0 2 ltac:(lra)). lra. }
    replace (Z.to_nat sf) with (nsteps p + (Z.to_nat sf - nsteps p))%nat at 1
      by (pose proof (acc_steps p HA); unfold nsteps; lia).
    rewrite pow_add. field. split; apply pow_nonzero; auto. }
  unfold beyond in Hb. destruct (_ || _).
  - subst o. unfold constant in *. cbn [elts]. rewrite Forall_forall in *. intros x Hx.
    apply in_map_iff in Hx as (y & <- & Hy). apply Hval. apply Ha. auto.
  - pose proof (constant_middle _ _ _ _ _ _ Ha Hb) as G. fold (dimension p) in G. rewrite (Hval _ eq_refl) in G. exact G.
Qed.
End Beyond.
