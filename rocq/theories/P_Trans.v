(** * P_Trans: the 2D transform treats width and height alike. *)
Require Import List Bool Arith ZArith Lia Reals Lra.
Require Import ZifyBool.
Require Import Verif.M_Base Verif.M_Params Verif.M_Padding Verif.M_Wavelet Verif.M_Buffer Verif.M_Denoise Verif.M_Real.
Require Import Verif.S_Params Verif.S_Buffer Verif.S_Exact Verif.S_Trans.
Require Import Verif.P_Base Verif.P_Params Verif.P_Padding Verif.P_Wavelet Verif.P_Buffer Verif.P_Impl Verif.P_Api Verif.P_Api2
  Verif.P_Sum Verif.P_Lin Verif.P_Denoise.
Import ListNotations.
Open Scope nat_scope.
Local Existing Instance exactR.

(** ** matrices *)
Lemma tr_mk r c (f f' : nat -> nat -> R) : (forall i j, i < r -> j < c -> f' j i = f i j) ->
  transposed (mk r c f) (mk c r f').
Proof.
  intros H. split; [apply mk_wf|]. split; [apply mk_wf|]. split; [reflexivity|]. split; [reflexivity|].
  cbn [rows cols mk]. intros i j Hi Hj. change (mel 0%R (mk c r f') j i = mel 0%R (mk r c f) i j).
  rewrite !mel_mk by auto. auto.
Qed.
Lemma tr_mel m m' : transposed m m' -> forall i j, i < rows m -> j < cols m -> mel 0%R m' j i = mel 0%R m i j.
Proof. intros (_ & _ & _ & _ & H). exact H. Qed.
Lemma tr_sym m m' : transposed m m' -> transposed m' m.
Proof.
  intros (W & W' & R & C & H). split; [auto|]. split; [auto|]. split; [auto|]. split; [auto|].
  intros i j Hi Hj. symmetry. apply H; lia.
Qed.

(** ** rows first or columns first *)
Lemma sep_turn (mw mh : smat R) x i j : sep mw mh x i j = sep mh mw (fun a b => x b a) j i.
Proof.
  unfold sep. rewrite !rowdot_lsum.
  rewrite (lsum_ext _ _ (fun e => lsum (srow_at mw j) (fun e' => snd e * (snd e' * x (fst e) (fst e')))%R))
    by (intros; rewrite rowdot_lsum, <- lsum_scal; reflexivity).
  rewrite (lsum_ext (srow_at mw j) (fun e => _ * rowdot _ _)%R
     (fun e' => lsum (srow_at mh i) (fun e => snd e * (snd e' * x (fst e) (fst e')))%R)).
  - apply lsum_swap.
  - intros e' _. rewrite rowdot_lsum, <- lsum_scal. apply lsum_ext. intros; ring.
Qed.

(** ** geometry *)
Definition gturn (g : geom) : geom := Geom (gdim g) (gt g) (gK g) (gw g) (gh g).
Section G.
Variable g : geom.
Hypothesis G : gwf g.
Hypothesis D : gdim g = 2.

Lemma turn_gwf : gwf (gturn g).
Proof.
  destruct G as (_ & H). split; [right; exact D|]. cbn [gturn gK gdim gt gh gw]. intros HK.
  destruct (H HK) as (H1 & H2 & H3). auto.
Qed.
Lemma turn_hs s : hs (gturn g) s = ws g s.
Proof. unfold hs, ws. rewrite D. reflexivity. Qed.
Lemma turn_ws s : ws (gturn g) s = hs g s.
Proof. unfold hs, ws. cbn [gturn gdim gw]. rewrite D. reflexivity. Qed.
Lemma hs_pos s : s <= gK g -> 0 < gK g -> 0 < hs g s.
Proof.
  intros Hs HK. destruct (Nat.eq_dec s (gK g)) as [->|].
  - destruct (hs_step g (gK g - 1) G ltac:(lia)) as (H1 & H2). destruct (gt_range g 0 G HK).
    replace (S (gK g - 1)) with (gK g) in H1 by lia. lia.
  - destruct (hs_step g s G ltac:(lia)) as (H1 & H2). destruct (gt_range g 0 G HK). lia.
Qed.
Lemma ws_pos s : s <= gK g -> 0 < gK g -> 0 < ws g s.
Proof.
  intros Hs HK. destruct (Nat.eq_dec s (gK g)) as [->|].
  - destruct (ws_step g (gK g - 1) G D ltac:(lia)) as (H1 & H2). destruct (gt_range g 0 G HK).
    replace (S (gK g - 1)) with (gK g) in H1 by lia. lia.
  - destruct (ws_step g s G D ltac:(lia)) as (H1 & H2). destruct (gt_range g 0 G HK). lia.
Qed.

(** ** analysis *)
Lemma ap_turn x x' : (forall i j, i < hs g 0 -> j < ws g 0 -> x' j i = x i j) ->
  forall s, s <= gK g -> forall i j, i < hs g s -> j < ws g s -> ap (gturn g) x' s j i = ap g x s i j.
Proof.
  intros H0. induction s; intros Hs i j Hi Hj; [apply H0; auto|].
  cbn [ap]. unfold ana_a. cbn [gturn gdim gt]. rewrite D. cbn [Nat.eqb].
  change (Geom (gdim g) (gt g) (gK g) (gw g) (gh g)) with (gturn g). rewrite turn_hs, turn_ws.
  rewrite sep_turn. apply (sep_ext _ _ (hs g s) (ws g s)); try (apply dm_swf; (apply hs_pos || apply ws_pos); lia); try reflexivity.
  intros a b Ha Hb. apply IHs; auto; lia.
Qed.

Lemma sep_ap_turn x x' s i j : (forall i j, i < hs g 0 -> j < ws g 0 -> x' j i = x i j) -> s < gK g ->
  sep (dm (gt g) (hs g s)) (dm (gt g) (ws g s)) (ap (gturn g) x' s) j i =
  sep (dm (gt g) (ws g s)) (dm (gt g) (hs g s)) (ap g x s) i j.
Proof.
  intros H0 Hs. rewrite sep_turn.
  apply (sep_ext _ _ (hs g s) (ws g s)); try (apply dm_swf; (apply hs_pos || apply ws_pos); lia); try reflexivity.
  intros a b Ha Hb. apply (ap_turn x x'); auto; lia.
Qed.

Section Ana.
Variables (den den' : denoiser R) (x x' : nat -> nat -> R).
Hypothesis TD : turn_denoisers den den'.
Hypothesis H0 : forall i j, i < hs g 0 -> j < ws g 0 -> x' j i = x i j.

Lemma det_nth g0 dn y s i : gdim g0 = 2 -> s < gK g0 -> i < 3 ->
  nth_error (dec_pure g0 dn y) (s * 3 + i) =
  option_map (fun d => den2 dn (mk (hs g0 (S s)) (ws g0 (S s)) d) s)
    (nth_error [fun a b => sep (dm (gt g0) (ws g0 s)) (dm (gt g0) (hs g0 s)) (ap g0 y s) (hs g0 s / 2 + a) b;
                fun a b => sep (dm (gt g0) (ws g0 s)) (dm (gt g0) (hs g0 s)) (ap g0 y s) a (ws g0 s / 2 + b);
                fun a b => sep (dm (gt g0) (ws g0 s)) (dm (gt g0) (hs g0 s)) (ap g0 y s) (hs g0 s / 2 + a) (ws g0 s / 2 + b)] i).
Proof.
  intros D0 Hs Hi. assert (E : gspw g0 = 3) by (unfold gspw; rewrite D0; reflexivity).
  pose proof (dec_pure_nth_detail g0 dn y s i Hs ltac:(lia)) as H. rewrite E in H. rewrite H.
  unfold detf, ana_d, den_apply. rewrite D0. cbn [Nat.eqb]. reflexivity.
Qed.

Lemma dec_turn : turned_channel (gK g) (dec_pure g den x) (dec_pure (gturn g) den' x').
Proof.
  assert (E : gspw g = 3) by (unfold gspw; rewrite D; reflexivity).
  assert (E' : gspw (gturn g) = 3) by (unfold gspw; cbn [gturn gdim]; rewrite D; reflexivity).
  assert (S3 : forall (s : nat) m m' f f', s < gK g ->
     Some (den2 den (mk (hs g (S s)) (ws g (S s)) f) s) = Some m ->
     Some (den2 den' (mk (hs (gturn g) (S s)) (ws (gturn g) (S s)) f') s) = Some m' ->
     (forall a b, a < hs g (S s) -> b < ws g (S s) -> f' b a = f a b) -> transposed m m').
  { intros s m m' f f' Hs H1 H2 H3. injection H1 as <-. injection H2 as <-. apply TD.
    rewrite turn_hs, turn_ws. apply tr_mk. auto. }
  split; [|split; [|split; [|split; [|split]]]].
  - rewrite dec_pure_length, E. reflexivity.
  - rewrite dec_pure_length, E'. reflexivity.
  - intros s m m' Hs H1 H2. replace (s * 3) with (s * 3 + 0) in H1 by lia.
    rewrite det_nth in H1, H2 by (auto; lia). cbn [nth_error option_map] in H1, H2.
    apply (S3 s m m' _ _ Hs H1 H2); auto. intros a b Ha Hb. cbn [gturn gt].
    change (Geom (gdim g) (gt g) (gK g) (gw g) (gh g)) with (gturn g). rewrite turn_hs, turn_ws.
    apply sep_ap_turn; auto.
  - intros s m m' Hs H1 H2. replace (s * 3) with (s * 3 + 0) in H2 by lia.
    rewrite det_nth in H1, H2 by (auto; lia). cbn [nth_error option_map] in H1, H2.
    apply (S3 s m m' _ _ Hs H1 H2); auto. intros a b Ha Hb. cbn [gturn gt].
    change (Geom (gdim g) (gt g) (gK g) (gw g) (gh g)) with (gturn g). rewrite turn_hs, turn_ws.
    apply sep_ap_turn; auto.
  - intros s m m' Hs H1 H2.
    rewrite det_nth in H1, H2 by (auto; lia). cbn [nth_error option_map] in H1, H2.
    apply (S3 s m m' _ _ Hs H1 H2); auto. intros a b Ha Hb. cbn [gturn gt].
    change (Geom (gdim g) (gt g) (gK g) (gw g) (gh g)) with (gturn g). rewrite turn_hs, turn_ws.
    apply sep_ap_turn; auto.
  - intros m m' H1 H2. pose proof (dec_pure_nth_approx g den x) as A1.
    pose proof (dec_pure_nth_approx (gturn g) den' x') as A2. rewrite E in A1. rewrite E' in A2.
    cbn [gturn gK] in A2. change (Geom (gdim g) (gt g) (gK g) (gw g) (gh g)) with (gturn g) in A2.
    rewrite A1 in H1. rewrite A2 in H2. injection H1 as <-. injection H2 as <-.
    unfold apm. rewrite turn_hs, turn_ws. apply tr_mk. intros i j Hi Hj. apply ap_turn; auto.
Qed.
End Ana.

(** ** synthesis *)
Lemma joined_turn h w (ll lh hl hh ll' lh' hl' hh' : nat -> nat -> R) :
  (forall i j, i < h -> j < w -> ll' j i = ll i j) -> (forall i j, i < h -> j < w -> hl' j i = lh i j) ->
  (forall i j, i < h -> j < w -> lh' j i = hl i j) -> (forall i j, i < h -> j < w -> hh' j i = hh i j) ->
  forall i j, i < h * 2 -> j < w * 2 -> joined w h ll' lh' hl' hh' j i = joined h w ll lh hl hh i j.
Proof.
  intros H1 H2 H3 H4 i j Hi Hj. unfold joined.
  destruct (Nat.ltb_spec i h), (Nat.ltb_spec j w); [apply H1|apply H3|apply H2|apply H4]; lia.
Qed.

Lemma rc_turn ch ch' : layout g ch -> layout (gturn g) ch' -> turned_channel (gK g) ch ch' ->
  forall it, it <= gK g -> forall i j, i < hs g (gK g - it) -> j < ws g (gK g - it) ->
  rc (gturn g) ch' it j i = rc g ch it i j.
Proof.
  intros L L' (N & N' & T0 & T1 & T2 & T3).
  assert (E : gspw g = 3) by (unfold gspw; rewrite D; reflexivity).
  assert (E' : gspw (gturn g) = 3) by (unfold gspw; cbn [gturn gdim]; rewrite D; reflexivity).
  assert (NE : forall k, k < gK g * 3 + 1 -> nth_error ch k = Some (nth k ch mempty) /\ nth_error ch' k = Some (nth k ch' mempty)).
  { intros k Hk. split; apply nth_error_nth'; lia. }
  assert (SZ : forall s i, s < gK g -> i < 3 -> rows (nth (s * 3 + i) ch mempty) = hs g (S s) /\ cols (nth (s * 3 + i) ch mempty) = ws g (S s)).
  { intros s i Hs Hi. destruct L as (_ & L & _). rewrite E in L. specialize (L s i (nth (s * 3 + i) ch mempty) Hs Hi).
    destruct L as (_ & ? & ?); auto. apply NE. lia. }
  induction it; intros Hit i j Hi Hj.
  - cbn [rc]. rewrite E, E'. cbn [gturn gK]. unfold chf. change (@a0 R exactR) with 0%R.
    destruct (NE (gK g * 3) ltac:(lia)) as (Q1 & Q2).
    apply (tr_mel _ _ (T3 _ _ Q1 Q2)); destruct L as (_ & _ & L); rewrite E in L; specialize (L _ Q1);
      rewrite Nat.sub_0_r in *; lia.
  - cbn [rc]. rewrite E, E'. cbn [gturn gK gt gdim]. change (Geom (gdim g) (gt g) (gK g) (gw g) (gh g)) with (gturn g).
    rewrite turn_hs, turn_ws. unfold synth. rewrite D. cbn [Nat.eqb].
    set (s := gK g - S it) in *. assert (Hs : s < gK g) by (unfold s; lia).
    assert (Es : gK g - it = S s) by (unfold s; lia).
    pose proof (hs_pos (S s) ltac:(lia) ltac:(lia)). pose proof (ws_pos (S s) ltac:(lia) ltac:(lia)).
    rewrite sep_turn.
    apply (sep_ext _ _ (hs g (S s) * 2) (ws g (S s) * 2)); try (apply dmT_swf; lia); try reflexivity.
    intros a b Ha Hb. apply joined_turn; auto; unfold chf; change (@a0 R exactR) with 0%R; intros i0 j0 Hi0 Hj0.
    + apply IHit; rewrite ?Es; auto; lia.
    + rewrite Nat.add_0_r. destruct (NE (s * 3) ltac:(lia)) as (Q1 & _). destruct (NE (s * 3 + 1) ltac:(lia)) as (_ & Q2).
      destruct (SZ s 0 Hs ltac:(lia)) as (R1 & R2). rewrite Nat.add_0_r in R1, R2.
      apply (tr_mel _ _ (T0 s _ _ Hs Q1 Q2)); lia.
    + rewrite Nat.add_0_r. destruct (NE (s * 3) ltac:(lia)) as (_ & Q1). destruct (NE (s * 3 + 1) ltac:(lia)) as (Q2 & _).
      destruct (SZ s 1 Hs ltac:(lia)) as (R1 & R2).
      apply (tr_mel _ _ (T1 s _ _ Hs Q2 Q1)); lia.
    + destruct (NE (s * 3 + 2) ltac:(lia)) as (Q1 & Q2).
      destruct (SZ s 2 Hs ltac:(lia)) as (R1 & R2).
      apply (tr_mel _ _ (T2 s _ _ Hs Q1 Q2)); lia.
Qed.
End G.

(** ** the API *)
Section A.
Variables p p' : params.
Hypothesis HA : accepted p.
Hypothesis HT : turned_params p p'.

Lemma turn_accepted : accepted p'.
Proof.
  destruct HT as (w & h & E & ->). destruct HA as ((R1 & R2 & R3 & R4 & R5) & (L1 & L2 & L3) & H3 & H4).
  rewrite E in *. unfold accepted, params_rep, legal. cbn [shape signum steps wtype] in *.
  assert (F : forall (P : Z -> Prop), Forall P [w; h] -> Forall P [h; w]).
  { intros P H. inversion H as [|? ? ? H']; subst. inversion H'; subst. auto. }
  assert (FF : Forall (fun n => (2 * wtype p <= n)%Z) [w; h] -> True) by auto.
  repeat split; auto; try apply F; auto; try apply R2; try apply R3; try apply R4; try apply R5; try apply H3.
  destruct (wtype p =? 0)%Z; auto. 
Qed.
Lemma turn_dim : dimension p = 2 /\ dimension p' = 2.
Proof. destruct HT as (w & h & E & ->). unfold dimension. rewrite E. auto. Qed.
Lemma turn_geom : geom_of p' = gturn (geom_of p).
Proof. destruct HT as (w & h & E & ->). unfold geom_of, gturn. rewrite E. cbn [shape steps wtype gdim gt gK gw gh]. reflexivity. Qed.
Lemma turn_sides : drows p' = dcols p /\ dcols p' = drows p.
Proof. destruct HT as (w & h & E & ->). unfold drows, dcols. rewrite E. auto. Qed.
Lemma turn_gdim : gdim (geom_of p) = 2.
Proof. rewrite <- geom_dim by auto. apply turn_dim. Qed.
Lemma turn_nsteps : nsteps p' = nsteps p.
Proof. destruct HT as (w & h & E & ->). reflexivity. Qed.

Lemma padf_turn m m' : shaped p m -> transposed m m' ->
  forall i j, i < hs (geom_of p) 0 -> j < ws (geom_of p) 0 -> padf p' m' j i = padf p m i j.
Proof.
  intros (W & Rm & C) TR i j Hi Hj. unfold padf. rewrite turn_geom. cbn [gturn gh gw].
  destruct turn_sides as (-> & ->). change (@a0 R exactR) with 0%R.
  rewrite hs_0 in Hi. rewrite ws_0 in Hj by (apply geom_wf; auto).
  destruct (drows_le p HA) as (A1 & A2 & A3). destruct (dcols_le p HA) as (B1 & B2 & B3).
  assert (0 < drows p) by (destruct (Z.eq_dec (wtype p) 0); [rewrite A3; lia|apply A2; auto]).
  assert (0 < dcols p) by (destruct (Z.eq_dec (wtype p) 0); [rewrite B3; lia|apply B2; auto]).
  apply (tr_mel m m' TR); lia.
Qed.

Lemma dec_of_turn den den' m m' : turn_denoisers den den' -> shaped p m -> transposed m m' ->
  turned_channel (nsteps p) (dec_of p den m) (dec_of p' den' m').
Proof.
  intros TD Sm TR. unfold dec_of. rewrite turn_geom, <- K_nsteps by auto.
  apply dec_turn; auto; [apply geom_wf; auto|apply turn_gdim|]. apply padf_turn; auto.
Qed.

Lemma com_of_turn k ch ch' : k <= nsteps p -> has_layout p ch -> has_layout p' ch' -> turned_channel (nsteps p) ch ch' ->
  transposed (com_of p k ch) (com_of p' k ch').
Proof.
  intros Hk L L' TC. pose proof turn_accepted as HA'. apply layout_iff in L; auto. apply layout_iff in L'; auto.
  rewrite turn_geom in L'. rewrite <- K_nsteps in * by auto.
  unfold com_of. rewrite turn_geom. cbn [gturn gK]. change (Geom _ _ _ _ _) with (gturn (geom_of p)).
  destruct turn_dim as (D1 & D2). destruct turn_sides as (S1 & S2).
  assert (CR : transposed (cropf p k (rc (geom_of p) ch (gK (geom_of p) - k)))
                          (cropf p' k (rc (gturn (geom_of p)) ch' (gK (geom_of p) - k)))).
  { unfold cropf. rewrite D1, D2, S1, S2, turn_geom. cbn [Nat.eqb].
    rewrite turn_hs, turn_ws by apply turn_gdim.
    apply tr_mk. intros i j Hi Hj.
    apply rc_turn; auto; try lia; try (apply geom_wf; auto); try apply turn_gdim.
    - replace (gK (geom_of p) - (gK (geom_of p) - k)) with k by lia.
      assert (drows p / 2 ^ k <= hs (geom_of p) k).
      { unfold hs. apply Nat.div_le_mono; [apply Nat.pow_nonzero; lia|]. apply drows_le; auto. }
      set (q := (hs (geom_of p) k - drows p / 2 ^ k)) in *. assert (q / 2 <= q) by (apply Nat.div_le_upper_bound; lia). lia.
    - replace (gK (geom_of p) - (gK (geom_of p) - k)) with k by lia.
      assert (dcols p / 2 ^ k <= ws (geom_of p) k).
      { unfold ws. rewrite turn_gdim. cbn [Nat.eqb]. apply Nat.div_le_mono; [apply Nat.pow_nonzero; lia|]. apply dcols_le; auto. }
      set (q := (ws (geom_of p) k - dcols p / 2 ^ k)) in *. assert (q / 2 <= q) by (apply Nat.div_le_upper_bound; lia). lia. }
  unfold scalem. rewrite D1, D2. destruct (0 <? k); auto.
  destruct CR as (W & W' & Rm & C & H). unfold transposed, mwf in *. cbn [rows cols elts] in *. rewrite !map_length.
  split; [auto|]. split; [auto|]. split; [auto|]. split; [auto|].
  intros i j Hi Hj. unfold at_ in *. cbn [rows cols elts].
  assert (Z0 : @ascale R exactR 2 k 0%R = 0%R) by (cbn; unfold Rdiv; ring).
  assert (MN : forall l n, nth n (map (@ascale R exactR 2 k) l) 0%R = @ascale R exactR 2 k (nth n l 0%R)).
  { intros l n. rewrite <- Z0 at 1. apply map_nth. }
  rewrite !MN. f_equal. apply H; auto.
Qed.

Lemma turn_shaped m m' : shaped p m -> transposed m m' -> shaped p' m'.
Proof.
  intros (W & R & C) (W1 & W2 & R' & C' & _). destruct turn_sides as (S1 & S2). split; [auto|]. lia.
Qed.
Lemma turn_signum : signum p' = signum p.
Proof. destruct HT as (w & h & E & ->). reflexivity. Qed.
Lemma turn_steps : steps p' = steps p.
Proof. destruct HT as (w & h & E & ->). reflexivity. Qed.

Lemma F2_nth {X Y} (P : X -> Y -> Prop) l l' : Forall2 P l l' -> forall i x y, nth_error l i = Some x -> nth_error l' i = Some y -> P x y.
Proof.
  induction 1; intros i u v H1 H2; destruct i; cbn in *; try discriminate; [congruence|eauto].
Qed.
Lemma F2_len {X Y} (P : X -> Y -> Prop) l l' : Forall2 P l l' -> length l = length l'.
Proof. induction 1; cbn; auto. Qed.
Lemma F2_map {X Y X' Y'} (P : X -> Y -> Prop) (Q : X' -> Y' -> Prop) f f' l l' :
  (forall x y, In x l -> P x y -> Q (f x) (f' y)) -> Forall2 P l l' -> Forall2 Q (map f l) (map f' l').
Proof.
  intros H F. induction F; cbn [map]; constructor.
  - apply H; [left; auto|auto].
  - apply IHF. intros; apply H; [right; auto|auto].
Qed.

Lemma turn_data data data' : Forall (shaped p) data -> Forall2 transposed data data' -> Forall (shaped p') data'.
Proof. intros H F. induction F; inversion H; subst; constructor; auto. eapply turn_shaped; eauto. Qed.

Lemma decompose_turned (b b' : buffer R) data data' den den' :
  reachable p b -> reachable p' b' -> keeps_shape den -> keeps_shape den' -> turn_denoisers den den' ->
  (1 <= signum p)%Z -> Z.of_nat (length data) = signum p -> Forall (shaped p) data -> Forall2 transposed data data' ->
  exists b1 b1', decompose b data den = Ok (true, b1) /\ decompose b' data' den' = Ok (true, b1') /\
    bpar b1 = p /\ bpar b1' = p' /\ Forall (has_layout p) (bdec b1) /\ Forall (has_layout p') (bdec b1') /\
    Forall2 (turned_channel (nsteps p)) (bdec b1) (bdec b1').
Proof.
  intros HR HR' HK HK' TD H1 HL HS F. pose proof turn_accepted as HA'.
  exists (Buffer p (map (dec_of p den) data)), (Buffer p' (map (dec_of p' den') data')).
  split; [apply safe_ok; auto|]. split.
  { apply safe_ok; auto; rewrite ?turn_signum; auto; [|eapply turn_data; eauto]. rewrite <- (F2_len _ _ _ F). auto. }
  split; [reflexivity|]. split; [reflexivity|]. cbn [bdec].
  split; [apply Forall_forall; intros c Hc; apply in_map_iff in Hc as (m & <- & _); apply dec_of_layout; auto|].
  split; [apply Forall_forall; intros c Hc; apply in_map_iff in Hc as (m & <- & _); apply dec_of_layout; auto|].
  apply (F2_map transposed); auto. intros m m' Hin TR. apply dec_of_turn; auto. rewrite Forall_forall in HS; auto.
Qed.

Lemma compose_turned (b b' : buffer R) sf :
  bpar b = p -> bpar b' = p' -> Z.of_nat (length (bdec b)) = signum p ->
  Forall (has_layout p) (bdec b) -> Forall (has_layout p') (bdec b') ->
  Forall2 (turned_channel (nsteps p)) (bdec b) (bdec b') -> (0 <= sf <= steps p)%Z ->
  exists out out', compose b sf = Ok (true, out) /\ compose b' sf = Ok (true, out') /\ Forall2 transposed out out'.
Proof.
  intros E E' HL L L' F Hsf. pose proof turn_accepted as HA'. rewrite Forall_forall in L, L'.
  exists (map (com_of p (Z.to_nat sf)) (bdec b)), (map (com_of p' (Z.to_nat sf)) (bdec b')).
  split; [apply compose_ok; auto|]. split.
  { apply compose_ok; auto; rewrite ?turn_signum, ?turn_steps; auto. rewrite <- HL. f_equal. symmetry. exact (F2_len _ _ _ F). }
  assert (G : forall l l', Forall2 (turned_channel (nsteps p)) l l' -> (forall c, In c l -> has_layout p c) ->
     (forall c, In c l' -> has_layout p' c) -> Forall2 transposed (map (com_of p (Z.to_nat sf)) l) (map (com_of p' (Z.to_nat sf)) l')).
  { intros l l' FF. induction FF; intros I1 I2; cbn [map]; constructor.
    - apply com_of_turn; auto; [unfold nsteps; lia|apply I1|apply I2]; left; auto.
    - apply IHFF; intros; [apply I1|apply I2]; right; auto. }
  apply G; auto.
Qed.
End A.

(** ** denoisers that qualify *)
Lemma null_turn : turn_denoisers null_denoiser null_denoiser.
Proof. intros m m' s H. exact H. Qed.
Lemma threshold_turn (M : Mag R) a b : turn_denoisers (@threshold_denoiser R exactR M a b) (@threshold_denoiser R exactR M a b).
Proof.
  intros m m' s (W & W' & Rm & C & H). cbn [den2 threshold_denoiser]. rewrite !threshold2_ok by auto. cbn [total_of].
  unfold transposed, mwf in *. cbn [rows cols elts]. rewrite !map_length.
  split; [auto|]. split; [auto|]. split; [auto|]. split; [auto|].
  intros i j Hi Hj. unfold at_ in *. cbn [rows cols elts].
  assert (L1 : i * cols m + j < length (elts m)) by (rewrite W; apply idx_lt; auto).
  assert (L2 : j * cols m' + i < length (elts m')) by (rewrite W'; apply idx_lt; lia).
  rewrite (nth_indep _ 0%R (thr_val a b s 0%R)) by (rewrite map_length; auto).
  rewrite (nth_indep (map _ (elts m)) 0%R (thr_val a b s 0%R)) by (rewrite map_length; auto).
  rewrite !map_nth. f_equal. apply H; auto.
Qed.
