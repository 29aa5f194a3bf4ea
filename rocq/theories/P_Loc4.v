(** * P_Loc4: locality and the error of a sample, for the API. *)
Require Import List Bool Arith ZArith QArith Qreals Lia Reals Lra Psatz.
Require Import ZifyBool.
Require Import Verif.M_Base Verif.M_Params Verif.M_Padding Verif.M_Wavelet Verif.M_Buffer Verif.M_Real.
Require Import Verif.S_Params Verif.S_Padding Verif.S_Buffer Verif.S_Exact Verif.S_Round Verif.S_Stable Verif.S_Local.
Require Import Verif.P_Base Verif.P_Wavelet Verif.P_Buffer Verif.P_Impl Verif.P_Api Verif.P_Api2.
Require Import Verif.P_Sum Verif.P_Lin Verif.P_PR Verif.P_L2 Verif.P_Rec Verif.P_Exact Verif.P_Round Verif.P_Round2 Verif.P_Round3.
Require Import Verif.P_Stable Verif.P_Stable2 Verif.P_Loc Verif.P_Loc2 Verif.P_Loc3.
Import ListNotations.

Section Acc.
Variable p : params.
Hypothesis HA : accepted p.
Notation g := (geom_of p).
Let Gw : gwf g := geom_wf p HA.

Lemma win_r : (0 < nsteps p)%nat -> rwin g = window p.
Proof.
  intros H. unfold rwin, window, wlen. rewrite (K_nsteps p HA), <- (geom_t p HA). destruct (Nat.eqb_spec (nsteps p) 0); [lia|reflexivity].
Qed.
Lemma win_area : (0 < nsteps p)%nat -> (rwin g * cwin g)%nat = window_area p.
Proof.
  intros H. unfold window_area, passes, cwin. rewrite <- (win_r H), <- (geom_dim p HA), dim_1d.
  unfold rwin. destruct (dimension p =? 1)%nat; cbn [Nat.pow]; lia.
Qed.
Lemma cone_cup : (0 < nsteps p)%nat -> ((2 * Z.to_nat (gt g) - 1) * cup g)%nat = cone p.
Proof.
  intros H. unfold cone, passes, cup. destruct (Nat.eqb_spec (nsteps p) 0); [lia|]. rewrite <- (geom_dim p HA), <- (geom_t p HA), dim_1d.
  destruct (dimension p =? 1)%nat; cbn [Nat.pow]; lia.
Qed.

Section Same.
Context {T : Type} {AT : Arith T}.

(** the channels [ch], composed: sample (i, j) *)
Lemma com_elem ch i j : (i < drows p)%nat -> (j < dcols p)%nat ->
  elem (com_of p 0 ch) i j = Some (rc g ch (gK g) (offk_r p 0 + i)%nat (offk_c p 0 + j)%nat).
Proof.
  intros Hi Hj. unfold com_of, scalem. cbn [Nat.ltb Nat.leb]. rewrite Nat.sub_0_r, (cropfA p HA), crows_0, ccols_0.
  unfold elem, mk; cbn [elts cols].
  rewrite nth_error_map_seq by nia. f_equal.
  rewrite Nat.div_add_l, Nat.div_small by lia. rewrite (Nat.add_comm (i * dcols p) j), Nat.mod_add, Nat.mod_small by lia.
  f_equal; lia.
Qed.

Lemma padf_elem m m' r q : padded_elem p m r q = padded_elem p m' r q -> cols m = dcols p -> cols m' = dcols p -> padf p m r q = padf p m' r q.
Proof.
  intros E C C'. unfold padf, mel. unfold padded_elem, elem, offset in E.
  rewrite <- (hs_level p HA 0), <- (ws_level p HA 0), hs_0, ws_0 in E by exact Gw.
  rewrite !min_nearest. rewrite <- !nth_default_eq. unfold nth_default. rewrite C in *. rewrite C' in *. rewrite E. reflexivity.
Qed.
Lemma iv_near a L n i r : (0 < n)%nat -> (i < n)%nat -> (r < n)%nat -> iv a L n i -> iv a L n r -> near n L i r.
Proof.
  intros Hn Hi Hr (z & Hz & E) (z' & Hz' & E'). exists (z' - z)%Z. split; [lia|].
  rewrite E, E'. rewrite Zplus_mod_idemp_l. f_equal. lia.
Qed.
Lemma near_refl n W i : (0 < W)%nat -> (i < n)%nat -> near n W i i.
Proof. intros HW Hi. exists 0%Z. split; [lia|]. rewrite Z.add_0_r, Z.mod_small; lia. Qed.
Lemma window_pos : (0 < window p)%nat.
Proof.
  unfold window. destruct (Nat.eqb_spec (nsteps p) 0); [lia|].
  assert (HK : (0 < gK g)%nat) by (rewrite (K_nsteps p HA); lia). pose proof (gt_range g 0 Gw HK) as Ht. rewrite <- (geom_t p HA) in Ht.
  pose proof (wlen_pos (Z.to_nat (wtype p)) (nsteps p) ltac:(lia)) as W. unfold wlen in W. lia.
Qed.
Lemma off_rows i : (i < drows p)%nat -> (offk_r p 0 + i < hs g 0)%nat.
Proof. intros Hi. rewrite (hs_level p HA). apply (off_in_r p HA). rewrite crows_0. auto. Qed.
Lemma off_cols j : (j < dcols p)%nat -> (offk_c p 0 + j < ws g 0)%nat.
Proof. intros Hj. rewrite (ws_level p HA). apply (off_in_c p HA). rewrite (ccols_0 p). auto. Qed.
Lemma offk_offset_r : offk_r p 0 = offset kBoth (level_rows p 0) (drows p).
Proof. unfold offk_r, offset. rewrite crows_0. reflexivity. Qed.
Lemma offk_offset_c : offk_c p 0 = offset kBoth (level_cols p 0) (dcols p).
Proof. unfold offk_c, offset. rewrite ccols_0. reflexivity. Qed.

Theorem local_same m m' i j : shaped p m -> shaped p m' -> (i < drows p)%nat -> (j < dcols p)%nat -> agree_around p i j m m' ->
  elem (com_of p 0 (dec_of p null_denoiser m)) i j = elem (com_of p 0 (dec_of p null_denoiser m')) i j.
Proof.
  intros (W & Rm & Cm) (W' & Rm' & Cm') Hi Hj AG. rewrite !com_elem by auto. f_equal.
  set (I := (offk_r p 0 + i)%nat). set (J := (offk_c p 0 + j)%nat).
  assert (HI : (I < hs g 0)%nat) by (apply off_rows; auto).
  assert (HJ : (J < ws g 0)%nat) by (apply off_cols; auto).
  assert (PD : forall r q, (r < hs g 0)%nat -> (q < ws g 0)%nat -> near (hs g 0) (window p) I r -> near (ws g 0) (window p) J q -> padf p m r q = padf p m' r q).
  { intros r q Hr Hq Nr Nq. apply padf_elem; auto. unfold I, J in *. rewrite (hs_level p HA) in *. rewrite (ws_level p HA) in *.
    apply AG; auto; [rewrite Nat.add_comm, <- offk_offset_r; auto|rewrite Nat.add_comm, <- offk_offset_c; auto]. }
  destruct (Nat.eq_dec (gK g) 0) as [E0|E0].
  - assert (RZ : forall ch : decomposition T, rc g ch (gK g) = rc g ch 0) by (intros; rewrite E0; reflexivity).
    rewrite !RZ. cbn [rc]. rewrite !chf_approx by (rewrite E0; auto).
    rewrite E0. cbn [ap]. apply PD; auto; apply near_refl; auto; apply window_pos.
  - assert (HK : (0 < gK g)%nat) by lia. assert (HN : (0 < nsteps p)%nat) by (rewrite <- (K_nsteps p HA); auto).
    destruct (row_window g Gw I HI HK) as (ar & Har). destruct (col_window g Gw J HJ HK) as (ac & Hac).
    assert (DI : down (rdep g) (hs g) I (gK g) (gK g) I).
    { apply up_down; auto; try (rewrite Nat.sub_diag; auto; reflexivity). apply rdep_ex; auto. }
    assert (DJ : down (cdep g) (ws g) J (gK g) (gK g) J).
    { apply up_down; auto; try (rewrite Nat.sub_diag; auto; reflexivity). apply cdep_ex; auto. }
    assert (SM : forall r q, (r < hs g 0)%nat -> (q < ws g 0)%nat -> down (rdep g) (hs g) I (gK g) (gK g) r -> down (cdep g) (ws g) J (gK g) (gK g) q ->
       padf p m r q = padf p m' r q).
    { intros r q Hr Hq Dr Dq. apply PD; auto.
      - rewrite <- (win_r HN). apply (iv_near ar); auto. lia.
      - assert (CW : (cwin g <= window p)%nat).
        { unfold cwin. rewrite <- (win_r HN). unfold rwin. destruct (gdim g =? 1)%nat; auto.
          pose proof window_pos as WP. rewrite <- (win_r HN) in WP. unfold rwin in WP. lia. }
        apply (iv_near ac); auto; [lia| |]; eapply iv_more; eauto. }
    apply (rc_loc g Gw I J); auto; try (rewrite Nat.sub_diag; auto; reflexivity).
    + intros s b r q Hs Hb Hr Hq Ur Uq.
      assert (DX : forall x : nat -> nat -> T, exists d, nth_error (detf g x s) b = Some d).
      { intros x. rewrite <- (detf_length g x s) in Hb. destruct (nth_error (detf g x s) b) eqn:E; eauto. apply nth_error_None in E. lia. }
      destruct (DX (padf p m)) as (d & Hd). destruct (DX (padf p m')) as (d' & Hd').
      rewrite (chf_detail p m s b d) by auto. rewrite (chf_detail p m' s b d') by auto.
      rewrite (ana_det g Gw (padf p m) s b r q d) by auto. rewrite (ana_det g Gw (padf p m') s b r q d') by auto.
      destruct (off_pos g Gw s b r q Hs Hb Hr Hq) as (O1 & O2 & O3 & O4).
      apply (ANA_loc2 g Gw I J _ _ SM); auto; congruence.
    + intros r q Hr Hq Ur Uq. rewrite !chf_approx by auto.
      apply (ap_loc g Gw I J _ _ SM); auto; rewrite Nat.sub_diag; auto.
Qed.

(** for the API *)
Theorem local_api (b b2 : buffer T) data data2 : reachable p b -> reachable p b2 -> (1 <= signum p)%Z ->
  Z.of_nat (length data) = signum p -> Forall (shaped p) data -> Z.of_nat (length data2) = signum p -> Forall (shaped p) data2 ->
  exists b' b2' out out2,
    decompose b data null_denoiser = Ok (true, b') /\ compose b' 0 = Ok (true, out) /\
    decompose b2 data2 null_denoiser = Ok (true, b2') /\ compose b2' 0 = Ok (true, out2) /\
    length out = length data /\ length out2 = length data /\
    forall c c2 m m2 o o2, nth_error data c = Some m -> nth_error data2 c2 = Some m2 -> nth_error out c = Some o -> nth_error out2 c2 = Some o2 ->
      forall i j, (i < drows p)%nat -> (j < dcols p)%nat -> agree_around p i j m m2 -> 
        elem o i j = elem o2 i j /\ exists v, elem o i j = Some v.
Proof.
  intros Hr Hr2 Hsig HL HS HL2 HS2. eexists _, _, _, _.
  split; [apply (dec_okA p HA b data); auto|]. split; [apply (com_okA p HA data 0); auto; lia|].
  split; [apply (dec_okA p HA b2 data2); auto|]. split; [apply (com_okA p HA data2 0); auto; lia|].
  rewrite !map_length. split; auto. split; [lia|]. intros c c2 m m2 o o2 Hm Hm2 Ho Ho2 i j Hi Hj AG.
  rewrite nth_error_map, Hm in Ho. inversion Ho; subst o. rewrite nth_error_map, Hm2 in Ho2. inversion Ho2; subst o2.
  rewrite Forall_forall in HS, HS2. split.
  - apply local_same; auto; [apply HS|apply HS2]; eapply nth_error_In; eauto.
  - rewrite com_elem by auto. eauto.
Qed.
End Same.
End Acc.
