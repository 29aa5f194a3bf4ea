(** * P_Ring: symmetries of the transform without padding. *)
Require Import List Bool Arith ZArith Lia Reals Lra.
Require Import ZifyBool.
Require Import Verif.M_Base Verif.M_Params Verif.M_Padding Verif.M_Wavelet Verif.M_Buffer Verif.M_Real.
Require Import Verif.S_Params Verif.S_Buffer Verif.S_Exact Verif.S_Ring.
Require Import Verif.P_Base Verif.P_Params Verif.P_Padding Verif.P_Wavelet Verif.P_Buffer Verif.P_Impl Verif.P_Api Verif.P_Api2
  Verif.P_Sum Verif.P_Lin Verif.P_PR Verif.P_L2 Verif.P_Rec Verif.P_Exact.
Import ListNotations.
Open Scope nat_scope.
Local Existing Instance exactR.

Lemma mv_scal n M a x i : mv n M (fun j => a * x j)%R i = (a * mv n M x i)%R.
Proof. unfold mv. rewrite <- rsum_scal. apply rsum_ext. intros; ring. Qed.
Lemma mvT_scal n M a x i : mvT n M (fun j => a * x j)%R i = (a * mvT n M x i)%R.
Proof. unfold mvT. rewrite <- rsum_scal. apply rsum_ext. intros; ring. Qed.

(** ** a movement of the positions at every level that the filters follow *)
Definition Rana (n N : nat) (M : nat -> nat -> R) (f F : nat -> nat) (e : R) (d2 : Prop) : Prop :=
  forall x x', (forall j, j < n -> x' (f j) = x j) -> forall i, i < N ->
    mv n M x' (F i) = mv n M x i /\ (d2 -> mv n M x' (N + F i) = (e * mv n M x (N + i))%R).
Definition Rsyn (n N : nat) (M : nat -> nat -> R) (f F : nat -> nat) (e : R) (d2 : Prop) : Prop :=
  forall y y' : nat -> R, (forall i, i < N -> y' (F i) = y i /\ (d2 -> y' (N + F i) = (e * y (N + i)%nat)%R)) -> forall c, c < n ->
    mvT n M y' (f c) = mvT n M y c.

Section Sym.
Variable g : geom.
Hypothesis G : gwf g.
Variables (fr fc : nat -> nat -> nat) (er ec : R).
Hypothesis Fr : forall s i, s <= gK g -> i < hs g s -> fr s i < hs g s.
Hypothesis Fc : forall s i, s <= gK g -> i < ws g s -> fc s i < ws g s.
Hypothesis RA : forall s, s < gK g -> Rana (hs g s) (hs g (S s)) (HM (gt g) (hs g s)) (fr s) (fr (S s)) er True.
Hypothesis RT : forall s, s < gK g -> Rsyn (hs g s) (hs g (S s)) (HM (gt g) (hs g s)) (fr s) (fr (S s)) er True.
Hypothesis CA : forall s, s < gK g -> Rana (ws g s) (ws g (S s)) (WM g (ws g s)) (fc s) (fc (S s)) ec (gdim g = 2).
Hypothesis CT : forall s, s < gK g -> Rsyn (ws g s) (ws g (S s)) (WM g (ws g s)) (fc s) (fc (S s)) ec (gdim g = 2).

Definition bsign (b : nat) : R := if b =? 0 then er else if b =? 1 then ec else (er * ec)%R.

(** analysis *)
Lemma An_gen h w H W (f fcol : nat -> nat) x x' ri ri' cj cj' e1 e2 :
  (forall X X', (forall a, a < h -> X' (f a) = X a) -> mv h H X' ri' = (e1 * mv h H X ri)%R) ->
  (forall X X', (forall a, a < w -> X' (fcol a) = X a) -> mv w W X' cj' = (e2 * mv w W X cj)%R) ->
  (forall i j, i < h -> j < w -> x' (f i) (fcol j) = x i j) ->
  An h w H W x' ri' cj' = (e1 * e2 * An h w H W x ri cj)%R.
Proof.
  intros H1 H2 H3. unfold An.
  rewrite (H1 (fun a => e2 * mv w W (x a) cj)%R (fun a => mv w W (x' a) cj')).
  - rewrite mv_scal. ring.
  - intros a Ha. apply H2. intros b Hb. apply H3; auto.
Qed.

Lemma Ans_low s x x' i j : s < gK g -> (forall i j, i < hs g s -> j < ws g s -> x' (fr s i) (fc s j) = x i j) ->
  i < hs g (S s) -> j < ws g (S s) -> Ans g s x' (fr (S s) i) (fc (S s) j) = Ans g s x i j.
Proof.
  intros Hs H Hi Hj. unfold Ans.
  rewrite (An_gen _ _ _ _ (fr s) (fc s) x x' i _ j _ 1 1); auto; [ring| |]; intros X X' HX; rewrite Rmult_1_l.
  - apply (RA s Hs X X' HX i Hi).
  - apply (CA s Hs X X' HX j Hj).
Qed.

Lemma Ans_det s x x' i j b : s < gK g -> b = 0 \/ gdim g = 2 /\ b < 3 ->
  (forall i j, i < hs g s -> j < ws g s -> x' (fr s i) (fc s j) = x i j) ->
  i < hs g (S s) -> j < ws g (S s) ->
  Ans g s x' (offr b (hs g (S s)) (fr (S s) i)) (offc b (ws g (S s)) (fc (S s) j)) =
  (bsign b * Ans g s x (offr b (hs g (S s)) i) (offc b (ws g (S s)) j))%R.
Proof.
  intros Hs Hb H Hi Hj. unfold Ans, offr, offc, bsign.
  assert (RL : forall X X', (forall a, a < hs g s -> X' (fr s a) = X a) ->
     mv (hs g s) (HM (gt g) (hs g s)) X' (fr (S s) i) = (1 * mv (hs g s) (HM (gt g) (hs g s)) X i)%R).
  { intros X X' HX. rewrite Rmult_1_l. apply (RA s Hs X X' HX i Hi). }
  assert (RH : forall X X', (forall a, a < hs g s -> X' (fr s a) = X a) ->
     mv (hs g s) (HM (gt g) (hs g s)) X' (hs g (S s) + fr (S s) i) = (er * mv (hs g s) (HM (gt g) (hs g s)) X (hs g (S s) + i))%R).
  { intros X X' HX. apply (RA s Hs X X' HX i Hi). exact I. }
  assert (CL : forall X X', (forall a, a < ws g s -> X' (fc s a) = X a) ->
     mv (ws g s) (WM g (ws g s)) X' (fc (S s) j) = (1 * mv (ws g s) (WM g (ws g s)) X j)%R).
  { intros X X' HX. rewrite Rmult_1_l. apply (CA s Hs X X' HX j Hj). }
  assert (CH : gdim g = 2 -> forall X X', (forall a, a < ws g s -> X' (fc s a) = X a) ->
     mv (ws g s) (WM g (ws g s)) X' (ws g (S s) + fc (S s) j) = (ec * mv (ws g s) (WM g (ws g s)) X (ws g (S s) + j))%R).
  { intros D X X' HX. apply (CA s Hs X X' HX j Hj). exact D. }
  destruct Hb as [->|(D & Hb)].
  - cbn [Nat.eqb]. rewrite (An_gen _ _ _ _ _ _ x x' _ _ _ _ _ _ RH CL H). ring.
  - destruct b as [|[|[|b]]]; [| | |lia]; cbn [Nat.eqb].
    + rewrite (An_gen _ _ _ _ _ _ x x' _ _ _ _ _ _ RH CL H). ring.
    + rewrite (An_gen _ _ _ _ _ _ x x' _ _ _ _ _ _ RL (CH D) H). ring.
    + rewrite (An_gen _ _ _ _ _ _ x x' _ _ _ _ _ _ RH (CH D) H). ring.
Qed.

Lemma ap_sym x x' : (forall i j, i < hs g 0 -> j < ws g 0 -> x' (fr 0 i) (fc 0 j) = x i j) ->
  forall s, s <= gK g -> forall i j, i < hs g s -> j < ws g s -> ap g x' s (fr s i) (fc s j) = ap g x s i j.
Proof.
  intros H0. induction s; intros Hs i j Hi Hj; [apply H0; auto|].
  rewrite !ana_glue; auto. apply Ans_low; auto. intros; apply IHs; auto; lia.
Qed.

Lemma det_sym x x' s b d d' i j : (forall i j, i < hs g 0 -> j < ws g 0 -> x' (fr 0 i) (fc 0 j) = x i j) ->
  s < gK g -> nth_error (detf g x s) b = Some d -> nth_error (detf g x' s) b = Some d' ->
  i < hs g (S s) -> j < ws g (S s) -> d' (fr (S s) i) (fc (S s) j) = (bsign b * d i j)%R.
Proof.
  intros H0 Hs Hd Hd' Hi Hj.
  rewrite (det_glue g G x' s b _ _ d' Hs Hd') by auto. rewrite (det_glue g G x s b _ _ d Hs Hd) by auto.
  apply Ans_det; auto.
  - assert (Hb : b < gspw g) by (rewrite <- (detf_length g x s); apply nth_error_Some; congruence).
    unfold gspw in Hb. destruct (gdim_cases g G) as [E|E]; rewrite E in *; cbn [Nat.eqb] in Hb; [left; lia|right; auto].
  - intros; apply ap_sym; auto; lia.
Qed.

(** synthesis *)
Lemma joined_cases (h w : nat) (ll lh hl hh : nat -> nat -> R) i j : i < h -> j < w ->
  joined h w ll lh hl hh i j = ll i j /\ joined h w ll lh hl hh (h + i) j = lh i j /\
  joined h w ll lh hl hh i (w + j) = hl i j /\ joined h w ll lh hl hh (h + i) (w + j) = hh i j.
Proof.
  intros Hi Hj. unfold joined.
  destruct (Nat.ltb_spec i h), (Nat.ltb_spec j w), (Nat.ltb_spec (h + i) h), (Nat.ltb_spec (w + j) w); try lia.
  replace (h + i - h) with i by lia. replace (w + j - w) with j by lia. auto.
Qed.

Lemma Sys_sym s y y' i j : s < gK g ->
  (forall i j, i < hs g (S s) -> j < ws g (S s) ->
     y' (fr (S s) i) (fc (S s) j) = y i j /\
     y' (hs g (S s) + fr (S s) i) (fc (S s) j) = (er * y (hs g (S s) + i)%nat j)%R /\
     (gdim g = 2 -> y' (fr (S s) i) (ws g (S s) + fc (S s) j) = (ec * y i (ws g (S s) + j)%nat)%R) /\
     (gdim g = 2 -> y' (hs g (S s) + fr (S s) i) (ws g (S s) + fc (S s) j) = (er * ec * y (hs g (S s) + i)%nat (ws g (S s) + j)%nat)%R)) ->
  i < hs g s -> j < ws g s -> Sys g s y' (fr s i) (fc s j) = Sys g s y i j.
Proof.
  intros Hs H Hi Hj. unfold Sys, Sy. apply (RT s Hs); auto.
  intros a Ha. split; [|intros _].
  - apply (CT s Hs); auto. intros b Hb. destruct (H a b Ha Hb) as (Q1 & Q2 & Q3 & Q4). auto.
  - rewrite <- mvT_scal. apply (CT s Hs); auto. intros b Hb. destruct (H a b Ha Hb) as (Q1 & Q2 & Q3 & Q4).
    split; [exact Q2|]. intros D. rewrite (Q4 D). ring.
Qed.

Lemma rc_sym ch ch' :
  (forall s b i j, s < gK g -> b < gspw g -> i < hs g (S s) -> j < ws g (S s) ->
     chf ch' (s * gspw g + b) (fr (S s) i) (fc (S s) j) = (bsign b * chf ch (s * gspw g + b) i j)%R) ->
  (forall i j, i < hs g (gK g) -> j < ws g (gK g) ->
     chf ch' (gK g * gspw g) (fr (gK g) i) (fc (gK g) j) = chf ch (gK g * gspw g) i j) ->
  forall it, it <= gK g -> forall i j, i < hs g (gK g - it) -> j < ws g (gK g - it) ->
  rc g ch' it (fr (gK g - it) i) (fc (gK g - it) j) = rc g ch it i j.
Proof.
  intros HD HL. induction it; intros Hit i j Hi Hj.
  - cbn [rc]. rewrite Nat.sub_0_r in *. apply HL; auto.
  - cbn [rc]. set (s := gK g - S it) in *. assert (Hs : s < gK g) by (unfold s; lia).
    assert (Es : gK g - it = S s) by (unfold s; lia). rewrite Es in IHit.
    rewrite !syn_glue; auto; try (apply Fr; auto; lia); try (apply Fc; auto; lia).
    apply Sys_sym; auto. intros a b Ha Hb.
    pose proof (Fr (S s) a ltac:(lia) Ha) as Ha'. pose proof (Fc (S s) b ltac:(lia) Hb) as Hb'.
    set (l' := rc g ch' it) in *. set (l := rc g ch it) in *.
    destruct (joined_cases (hs g (S s)) (ws g (S s)) l (chf ch (s * gspw g + 0)) (chf ch (s * gspw g + 1)) (chf ch (s * gspw g + 2)) a b Ha Hb)
      as (-> & -> & -> & ->).
    destruct (joined_cases (hs g (S s)) (ws g (S s)) l' (chf ch' (s * gspw g + 0)) (chf ch' (s * gspw g + 1)) (chf ch' (s * gspw g + 2)) _ _ Ha' Hb')
      as (-> & -> & -> & ->).
    pose proof (spw_pos g).
    split; [apply IHit; auto; lia|]. split; [apply (HD s 0); auto|].
    split; intros D; pose proof (spw_2 g D) as E3; [apply (HD s 1)|apply (HD s 2)]; auto; lia.
Qed.

(** ** matrices *)
Definition mvd (s : nat) (e : R) (m m' : mat R) : Prop :=
  forall i j, i < hs g s -> j < ws g s -> mel 0%R m' (fr s i) (fc s j) = (e * mel 0%R m i j)%R.
Definition chan_sym (ch ch' : decomposition R) : Prop :=
  (forall s b m m', s < gK g -> b < gspw g ->
     nth_error ch (s * gspw g + b) = Some m -> nth_error ch' (s * gspw g + b) = Some m' -> mvd (S s) (bsign b) m m') /\
  (forall m m', nth_error ch (gK g * gspw g) = Some m -> nth_error ch' (gK g * gspw g) = Some m' -> mvd (gK g) 1 m m').

Lemma dec_chan_sym x x' : (forall i j, i < hs g 0 -> j < ws g 0 -> x' (fr 0 i) (fc 0 j) = x i j) ->
  chan_sym (dec_pure g null_denoiser x) (dec_pure g null_denoiser x').
Proof.
  intros H0. split.
  - intros s b m m' Hs Hb H1 H2. rewrite dec_pure_nth_detail in H1, H2 by auto.
    destruct (nth_error (detf g x s) b) as [d|] eqn:E1; [|discriminate].
    destruct (nth_error (detf g x' s) b) as [d'|] eqn:E2; [|discriminate]. cbn [option_map] in H1, H2.
    rewrite null_apply in H1, H2 by (intros; apply ws_1; auto). injection H1 as <-. injection H2 as <-.
    intros i j Hi Hj. rewrite !mel_mk; auto. eapply det_sym; eauto.
  - intros m m' H1 H2. rewrite dec_pure_nth_approx in H1, H2. injection H1 as <-. injection H2 as <-.
    intros i j Hi Hj. unfold apm. rewrite !mel_mk; auto. rewrite Rmult_1_l. apply ap_sym; auto.
Qed.

Lemma rc_chan_sym ch ch' : layout g ch -> layout g ch' -> chan_sym ch ch' ->
  forall k, k <= gK g -> forall i j, i < hs g k -> j < ws g k ->
  rc g ch' (gK g - k) (fr k i) (fc k j) = rc g ch (gK g - k) i j.
Proof.
  intros (N & _) (N' & _) (D & L) k Hk i j Hi Hj.
  assert (NE : forall q, q < gK g * gspw g + 1 -> nth_error ch q = Some (nth q ch mempty) /\ nth_error ch' q = Some (nth q ch' mempty)).
  { intros q Hq. split; apply nth_error_nth'; lia. }
  pose proof (rc_sym ch ch') as Q. replace k with (gK g - (gK g - k)) at 2 3 by lia.
  apply Q; try lia.
  - intros s b i0 j0 Hs Hb Hi0 Hj0. assert (S s * gspw g <= gK g * gspw g) by (apply Nat.mul_le_mono_r; lia).
    destruct (NE (s * gspw g + b) ltac:(lia)) as (Q1 & Q2). apply (D s b _ _ Hs Hb Q1 Q2); auto.
  - intros i0 j0 Hi0 Hj0. destruct (NE (gK g * gspw g) ltac:(lia)) as (Q1 & Q2).
    pose proof (L _ _ Q1 Q2 i0 j0 Hi0 Hj0) as W. rewrite Rmult_1_l in W. exact W.
  - replace (gK g - (gK g - k)) with k by lia. auto.
  - replace (gK g - (gK g - k)) with k by lia. auto.
Qed.
End Sym.

(** ** the API without padding *)
Section U.
Variable p : params.
Hypothesis HA : accepted p.
Hypothesis HU : unpadded p.
Let g := geom_of p.

Lemma unp_sides : hs g 0 = drows p /\ ws g 0 = dcols p.
Proof. destruct HU as (H1 & H2). rewrite <- H1, <- H2. split; [apply hs_level|apply ws_level]; auto. Qed.
Lemma unp_gh : gh g = drows p /\ gw g = dcols p.
Proof. destruct unp_sides as (H1 & H2). rewrite <- H1, <- H2. rewrite hs_0, ws_0 by (apply geom_wf; auto). auto. Qed.
Lemma unp_div k : k <= gK g -> drows p / 2 ^ k = hs g k /\ (if dimension p =? 1 then 1 else dcols p / 2 ^ k) = ws g k.
Proof.
  intros Hk. destruct unp_gh as (H1 & H2). unfold hs, ws. rewrite <- H1, <- H2. rewrite geom_dim by auto. auto.
Qed.
Lemma padf_unp m : shaped p m -> forall i j, i < hs g 0 -> j < ws g 0 -> padf p m i j = mel 0%R m i j.
Proof.
  intros (W & Rm & C) i j Hi Hj. destruct unp_sides as (E1 & E2). destruct unp_gh as (E3 & E4).
  unfold padf. fold g. rewrite E3, E4, !Nat.sub_diag. change (0 / 2) with 0. rewrite !Nat.sub_0_r.
  rewrite !Nat.min_l by lia. reflexivity.
Qed.
Lemma com_unp k (ch : decomposition R) : k <= gK g ->
  com_of p k ch = mk (hs g k) (ws g k) (fun i j => (if 0 <? k then ascale (dimension p) k (rc g ch (gK g - k) i j) else rc g ch (gK g - k) i j)).
Proof.
  intros Hk. destruct (unp_div k Hk) as (E1 & E2). unfold com_of, scalem, cropf. fold g. cbv zeta. rewrite E1, E2, !Nat.sub_diag.
  change (0 / 2) with 0. destruct (0 <? k).
  - cbn [rows cols elts mk]. unfold mk. f_equal. rewrite map_map. reflexivity.
  - reflexivity.
Qed.

Lemma F2_len' {X Y} (P : X -> Y -> Prop) l l' : Forall2 P l l' -> length l = length l'.
Proof. induction 1; cbn; auto. Qed.

Variables (fr fc : nat -> nat -> nat) (er ec : R).
Hypothesis Fr : forall s i, s <= gK g -> i < hs g s -> fr s i < hs g s.
Hypothesis Fc : forall s i, s <= gK g -> i < ws g s -> fc s i < ws g s.
Hypothesis RA : forall s, s < gK g -> Rana (hs g s) (hs g (S s)) (HM (gt g) (hs g s)) (fr s) (fr (S s)) er True.
Hypothesis RT : forall s, s < gK g -> Rsyn (hs g s) (hs g (S s)) (HM (gt g) (hs g s)) (fr s) (fr (S s)) er True.
Hypothesis CA : forall s, s < gK g -> Rana (ws g s) (ws g (S s)) (WM g (ws g s)) (fc s) (fc (S s)) ec (gdim g = 2).
Hypothesis CT : forall s, s < gK g -> Rsyn (ws g s) (ws g (S s)) (WM g (ws g s)) (fc s) (fc (S s)) ec (gdim g = 2).

Let GW : gwf g := geom_wf p HA.

Lemma dec_of_sym m m' : shaped p m -> shaped p m' -> mvd g fr fc 0 1 m m' ->
  chan_sym g fr fc er ec (dec_of p null_denoiser m) (dec_of p null_denoiser m').
Proof.
  intros S1 S2 H. unfold dec_of. apply dec_chan_sym; auto. intros i j Hi Hj.
  rewrite padf_unp; auto; [|apply Fr; auto; lia|apply Fc; auto; lia]. rewrite padf_unp by auto.
  rewrite H by auto. ring.
Qed.
Lemma com_of_sym k ch ch' : k <= gK g -> has_layout p ch -> has_layout p ch' -> chan_sym g fr fc er ec ch ch' ->
  mvd g fr fc k 1 (com_of p k ch) (com_of p k ch').
Proof.
  intros Hk L L' H. apply layout_iff in L; auto. apply layout_iff in L'; auto. rewrite !com_unp by auto.
  intros i j Hi Hj. rewrite !mel_mk; auto. rewrite Rmult_1_l.
  pose proof (rc_chan_sym g GW fr fc er ec Fr Fc RT CT ch ch' L L' H k Hk i j Hi Hj) as E.
  rewrite E. reflexivity.
Qed.

Lemma decompose_sym (b b' : buffer R) data data' :
  reachable p b -> reachable p b' ->
  (1 <= signum p)%Z -> Z.of_nat (length data) = signum p -> Forall (shaped p) data -> Forall (shaped p) data' ->
  Forall2 (mvd g fr fc 0 1) data data' ->
  exists b1 b1', decompose b data null_denoiser = Ok (true, b1) /\ decompose b' data' null_denoiser = Ok (true, b1') /\
    bpar b1 = p /\ bpar b1' = p /\ Forall (has_layout p) (bdec b1) /\ Forall (has_layout p) (bdec b1') /\
    Forall2 (chan_sym g fr fc er ec) (bdec b1) (bdec b1').
Proof.
  intros HR HR' H1 HL HS HS' F.
  assert (K0 : @keeps_shape R null_denoiser) by (split; [reflexivity|intros m s W; split; auto]).
  exists (Buffer p (map (dec_of p null_denoiser) data)), (Buffer p (map (dec_of p null_denoiser) data')).
  split; [apply safe_ok; auto|]. split.
  { apply safe_ok; auto. rewrite <- (F2_len' _ _ _ F). auto. }
  split; [reflexivity|]. split; [reflexivity|]. cbn [bdec].
  split; [apply Forall_forall; intros c Hc; apply in_map_iff in Hc as (m & <- & _); apply dec_of_layout; auto|].
  split; [apply Forall_forall; intros c Hc; apply in_map_iff in Hc as (m & <- & _); apply dec_of_layout; auto|].
  clear HL. induction F; cbn [map]; inversion HS; inversion HS'; subst; constructor; auto. apply dec_of_sym; auto.
Qed.

Lemma compose_sym (b b' : buffer R) sf :
  bpar b = p -> bpar b' = p -> Z.of_nat (length (bdec b)) = signum p ->
  Forall (has_layout p) (bdec b) -> Forall (has_layout p) (bdec b') ->
  Forall2 (chan_sym g fr fc er ec) (bdec b) (bdec b') -> (0 <= sf <= steps p)%Z ->
  exists out out', compose b sf = Ok (true, out) /\ compose b' sf = Ok (true, out') /\
    Forall (sized (hs g (Z.to_nat sf)) (ws g (Z.to_nat sf))) out /\ Forall (sized (hs g (Z.to_nat sf)) (ws g (Z.to_nat sf))) out' /\
    Forall2 (mvd g fr fc (Z.to_nat sf) 1) out out'.
Proof.
  intros E E' HL L L' F Hsf.
  assert (Hk : Z.to_nat sf <= gK g) by (unfold g; rewrite <- geom_K by auto; lia).
  assert (SZ : forall l, Forall (has_layout p) l -> Forall (sized (hs g (Z.to_nat sf)) (ws g (Z.to_nat sf))) (map (com_of p (Z.to_nat sf)) l)).
  { intros l _. apply Forall_forall. intros o Ho. apply in_map_iff in Ho as (c & <- & _). rewrite com_unp by auto.
    split; [apply mk_wf|]. auto. }
  exists (map (com_of p (Z.to_nat sf)) (bdec b)), (map (com_of p (Z.to_nat sf)) (bdec b')).
  split; [apply compose_ok; auto; apply Forall_forall; auto|]. split.
  { apply compose_ok; auto; [|apply Forall_forall; auto]. rewrite <- HL. f_equal. symmetry. exact (F2_len' _ _ _ F). }
  split; [auto|]. split; [auto|].
  assert (Q : forall l l', Forall2 (chan_sym g fr fc er ec) l l' -> Forall (has_layout p) l -> Forall (has_layout p) l' ->
     Forall2 (mvd g fr fc (Z.to_nat sf) 1) (map (com_of p (Z.to_nat sf)) l) (map (com_of p (Z.to_nat sf)) l')).
  { clear E E' HL L L' F SZ. intros l l' FF. induction FF; intros I1 I2; cbn [map]; inversion I1; inversion I2; subst; constructor; auto.
    apply com_of_sym; auto. }
  apply Q; auto.
Qed.
End U.
