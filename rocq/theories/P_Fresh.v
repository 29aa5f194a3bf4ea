(** * P_Fresh: composing what was never decomposed *)
Require Import List Bool Arith ZArith Lia.
Require Import ZifyBool.
Require Import Verif.M_Base Verif.M_Params Verif.M_Padding Verif.M_Wavelet Verif.M_Buffer.
Require Import Verif.S_Params Verif.S_Buffer Verif.P_Base Verif.P_Params Verif.P_Padding Verif.P_Wavelet Verif.P_Buffer Verif.P_Impl.
Import ListNotations.
Open Scope nat_scope.

Section F.
Context {T : Type} {A : Arith T}.
Variable p : params.
Hypothesis HA : accepted p.
Notation g := (geom_of p).
Notation fresh := (repeat (@mempty T) (decomposition_size p)).

Lemma size_fresh : decomposition_size p = Z.to_nat (steps p) * spw p + 1.
Proof.
  rewrite decomposition_size_spec by apply HA. unfold subband_count, spw, dimension.
  destruct (acc_cases p HA) as [(n & E & _)|(w & h & E & _)]; rewrite E; cbn [length Nat.eqb]; lia.
Qed.
Lemma rd_fresh i : i < decomposition_size p -> rd fresh i = Ok mempty.
Proof.
  intro H. unfold rd. rewrite (nth_error_nth' fresh mempty) by (rewrite repeat_length; exact H). rewrite nth_repeat. reflexivity.
Qed.
Lemma step_fresh s wm mats : s < gK g -> tmats_ok g mats -> mats s = Ok wm ->
  @compose_step T A (dimension p) mempty fresh (S s * spw p) wm = if gdim g =? 1 then Throw else UB.
Proof.
  intros Hs HM Hm. pose proof size_fresh as SZ. rewrite (geom_K p HA) in SZ. rewrite (HM s Hs) in Hm.
  unfold compose_step. rewrite (geom_dim p HA). pose proof (geom_spw p HA) as SP. unfold gspw in SP.
  destruct (gdim_cases _ (geom_wf p HA)) as [E|E]; rewrite E in *; cbn [Nat.eqb] in *; rewrite SP in *.
  - unfold guard. replace (1 <=? S s * 1) with true by lia. cbn [bind]. rewrite rd_fresh by lia. reflexivity.
  - unfold guard. replace (3 <=? S s * 3) with true by lia. cbn [bind]. rewrite !rd_fresh by lia. cbn [bind].
    inversion Hm. cbn [rd nth_error bind]. unfold idwt2. cbn [mempty rows cols]. unfold guard.
    pose proof (ws_step g s (geom_wf p HA) E Hs) as (Hw & Hw2). pose proof (gt_range g s (geom_wf p HA) Hs) as Ht.
    assert (0 < ws g (S s)) by lia.
    assert (Q : (srows (dmT (A := A) (gt g) (ws g s)) =? 0) = false).
    { apply Nat.eqb_neq. unfold dmT. cbn [stranspose srows]. unfold dm. cbn. lia. }
    change (0 * 2) with 0. rewrite Q. cbn [Nat.eqb andb].
    reflexivity.
Qed.
Lemma channel_fresh k mats : tmats_ok g mats ->
  @compose_channel T A p mats fresh k = if k <? gK g then (if gdim g =? 1 then Throw else UB) else Ok mempty.
Proof.
  intro HM. unfold compose_channel. rewrite rd_fresh by (rewrite size_fresh; lia). cbn [bind].
  rewrite (geom_K p HA). destruct (Nat.ltb_spec k (gK g)).
  - destruct (gK g - k) as [|n] eqn:E; [lia|]. cbn [loop]. rewrite Nat.sub_0_r.
    assert (Hs : gK g - 1 < gK g) by lia.
    assert (Q : exists wm, mats (gK g - 1) = Ok wm).
    { rewrite (HM _ Hs). destruct (gdim g =? 1); eauto. }
    destruct Q as (wm & Q). rewrite Q. cbn [bind].
    replace (gK g * spw p) with (S (gK g - 1) * spw p) by (f_equal; lia).
    rewrite (step_fresh _ wm mats Hs HM Q). destruct (gdim g =? 1); reflexivity.
  - replace (gK g - k) with 0 by lia. reflexivity.
Qed.

Theorem fresh_compose (b : buffer T) sf : @new_buffer T p = Ok b -> (1 <= signum p)%Z -> (0 <= sf)%Z ->
  @compose T A b sf =
    if (sf <? steps p)%Z then (if is_1d p then Throw else UB)
    else if is_1d p || existsb (fun n => (1 <=? n / 2 ^ sf)%Z) (shape p) then UB
    else Ok (true, repeat mempty (Z.to_nat (signum p))).
Proof.
  intros Eb Hsig Hsf. pose proof HA as (Hr & Hl & Ht & _).
  rewrite new_buffer_legal in Eb by (auto; lia). inversion Eb; subst b; clear Eb.
  unfold compose, scale_arg. destruct (Z.ltb_spec sf 0); [lia|]. cbn [bind bpar bdec].
  unfold compose_impl, compose_impl_gen, compose_partial_gen.
  destruct (tmats_acc p HA) as (stack & Es & HM). rewrite Es. cbn [bind].
  rewrite (synthesis_mat_acc p HA). cbn [bind].
  fold (mats_of p stack (filter_mat (rev (lo_r (wtype p))) (rev (hi_r (wtype p))))).
  set (mats := mats_of p stack _) in *. set (k := Z.to_nat sf).
  assert (I1 : is_1d p = (gdim g =? 1)).
  { unfold is_1d. destruct (acc_cases p HA) as [(n & E & _)|(w & h & E & _)]; unfold geom_of; rewrite E; reflexivity. }
  destruct (Z.to_nat (signum p)) as [|c] eqn:Ec; [lia|].
  assert (KK : (sf <? steps p)%Z = (k <? gK g)) by (rewrite <- (geom_K p HA); unfold k; lia).
  rewrite KK.
  destruct (k <? gK g) eqn:EK.
  - unfold tabulateM. cbn [seq mapM repeat]. cbn [rd nth_error Nat.add bind].
    rewrite (channel_fresh k mats HM), EK, I1. destruct (gdim g =? 1); reflexivity.
  - set (sub := upd (resize_dec fresh (k * spw p + 1)) (k * spw p) mempty).
    rewrite (tabulateM_ok _ _ (fun _ => sub)).
    2: { intros i Hi. unfold rd at 1. rewrite (nth_error_nth' _ fresh) by (rewrite repeat_length; lia). rewrite nth_repeat. cbn [bind].
         rewrite (channel_fresh k mats HM), EK. cbn [bind]. rewrite resize_last. rewrite wr_lt by (rewrite resize_last; lia).
         replace (k * spw p + 1 - 1) with (k * spw p) by lia. reflexivity. }
    cbn [bind].
    assert (AP : rd sub (length sub - 1) = Ok mempty).
    { unfold sub. rewrite upd_length, resize_last. apply rd_some. replace (k * spw p + 1 - 1) with (k * spw p) by lia.
      apply upd_nth_eq. rewrite resize_last. lia. }
    assert (CR : crop_padding (@mempty T) (map (fun x => (x / 2 ^ Z.of_nat k)%Z) (shape p)) =
      if is_1d p || existsb (fun n => (1 <=? n / 2 ^ sf)%Z) (shape p) then UB else Ok mempty).
    { unfold k. rewrite Z2Nat.id by lia. unfold crop_padding, rows_cols, is_1d.
      destruct (acc_cases p HA) as [(n & E & Hn & _)|(w & h & E & Hw & Hh & _)]; rewrite E;
        cbn [map length Nat.ltb Nat.leb rd nth_error bind fst snd crop mempty rows cols Nat.eqb orb existsb].
      - unfold crop. cbn [mempty rows cols]. reflexivity.
      - unfold crop, guard. cbn [mempty rows cols].
        destruct (Z.leb_spec 1 (w / 2 ^ sf)), (Z.leb_spec 1 (h / 2 ^ sf)); cbn [orb].
        + replace (Z.to_nat (w / 2 ^ sf) <=? 0) with false by lia. reflexivity.
        + replace (Z.to_nat (w / 2 ^ sf) <=? 0) with false by lia. reflexivity.
        + replace (Z.to_nat (h / 2 ^ sf) <=? 0) with false by lia. rewrite andb_false_r. reflexivity.
        + replace (Z.to_nat (w / 2 ^ sf)) with 0 by lia. replace (Z.to_nat (h / 2 ^ sf)) with 0 by lia. reflexivity. }
    set (sc := map (fun x => (x / 2 ^ Z.of_nat k)%Z) (shape p)) in *.
    set (bad := is_1d p || existsb (fun n => (1 <=? n / 2 ^ sf)%Z) (shape p)) in *.
    assert (MM : forall l : list nat, mapM (fun s : decomposition T =>
        let* aprox := rd s (length s - 1) in
        let* aprox := crop_padding aprox sc in
        Ok (if 0 <? k then Mat (rows aprox) (cols aprox) (map (ascale (dimension p) k) (elts aprox)) else aprox)) (map (fun _ => sub) l) =
        match l with [] => Ok [] | _ => if bad then UB else Ok (map (fun _ => mempty) l) end).
    { induction l as [|x l IH]; [reflexivity|]. cbn [map mapM]. rewrite AP. cbn [bind]. rewrite CR.
      destruct bad; [reflexivity|]. cbn [bind]. rewrite IH. destruct l; destruct (0 <? k); reflexivity. }
    rewrite MM. cbn [seq]. destruct bad; [reflexivity|]. cbn [bind]. f_equal. f_equal.
    change (map (fun _ => mempty) (seq 0 (S c)) = repeat (@mempty T) (S c)).
    generalize 0 as a. generalize (S c) as n. induction n; intro a; [reflexivity|]. cbn [seq map repeat]. f_equal. apply IHn.
Qed.
End F.
