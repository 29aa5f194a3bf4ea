(** * P_Ring3: 1D signals moved round, in any arithmetic. *)
Require Import List Bool Arith ZArith Lia.
Require Import ZifyBool.
Require Import Verif.M_Base Verif.M_Params Verif.M_Padding Verif.M_Wavelet Verif.M_Buffer.
Require Import Verif.S_Params Verif.S_Buffer Verif.S_Ring.
Require Import Verif.P_Base Verif.P_Params Verif.P_Padding Verif.P_Wavelet Verif.P_Buffer Verif.P_Impl Verif.P_Api Verif.P_Api2.
Import ListNotations.
Open Scope nat_scope.

Lemma mod2' N a b : 0 < N -> (2 * (a mod N) + b) mod (2 * N) = (2 * a + b) mod (2 * N).
Proof.
  intros HN. pose proof (Nat.div_mod a N ltac:(lia)) as E. rewrite E at 2.
  replace (2 * (N * (a / N) + a mod N) + b) with (2 * (a mod N) + b + (a / N) * (2 * N)) by lia.
  rewrite Nat.mod_add by lia. reflexivity.
Qed.
Lemma fold_ext {X Y} (f g : X -> Y -> X) l : (forall a b, In b l -> f a b = g a b) -> forall a, fold_left f l a = fold_left g l a.
Proof. induction l; intros H a0; cbn; auto. rewrite H by (left; auto). apply IHl. intros; apply H; right; auto. Qed.

Section T.
Context {T : Type} {A : Arith T}.

Lemma afilt_rot (f : list T) N d x x' : 0 < N -> (forall j, j < 2 * N -> x' ((j + 2 * d) mod (2 * N)) = x j) ->
  forall i, afilt f (2 * N) x' ((i + d) mod N) = afilt f (2 * N) x i.
Proof.
  intros HN H i. unfold afilt. apply sumT_ext. intros k Hk. f_equal.
  rewrite <- (H ((2 * i + k) mod (2 * N))) by (apply Nat.mod_upper_bound; lia). f_equal.
  rewrite mod2' by auto. rewrite Nat.add_mod_idemp_l by lia. f_equal. lia.
Qed.
Lemma sfilt_rot (lr hr : list T) N d low high low' high' : 0 < N -> (length lr - 2) / 2 <= N ->
  (forall i, i < N -> low' ((i + d) mod N) = low i /\ high' ((i + d) mod N) = high i) ->
  forall c, c < 2 * N -> sfilt lr hr N low' high' ((c + 2 * d) mod (2 * N)) = sfilt lr hr N low high c.
Proof.
  intros HN HP H c Hc. unfold sfilt. set (q := c / 2). set (r := c mod 2).
  assert (Ec : c = 2 * q + r) by (unfold q, r; apply Nat.div_mod; lia).
  assert (Hr : r < 2) by (apply Nat.mod_upper_bound; lia).
  assert (Hm : (q + d) mod N < N) by (apply Nat.mod_upper_bound; lia).
  assert (E : (c + 2 * d) mod (2 * N) = 2 * ((q + d) mod N) + r).
  { rewrite <- (Nat.mod_small (2 * ((q + d) mod N) + r) (2 * N)) by lia. rewrite mod2' by auto. f_equal. lia. }
  rewrite E.
  assert (E2 : (2 * ((q + d) mod N) + r) / 2 = (q + d) mod N).
  { rewrite (Nat.mul_comm 2), Nat.div_add_l by lia. rewrite (Nat.div_small r 2) by lia. lia. }
  assert (Ev : Nat.even (2 * ((q + d) mod N) + r) = Nat.even c).
  { rewrite Ec, !Nat.even_add, !Nat.even_mul. reflexivity. }
  rewrite E2, Ev. apply fold_ext. intros acc jj _. cbv zeta.
  assert (Ek : (N - (length lr - 2) / 2 + (q + d) mod N + jj) mod N =
               ((N - (length lr - 2) / 2 + q + jj) mod N + d) mod N).
  { rewrite Nat.add_mod_idemp_l by lia.
    replace (N - (length lr - 2) / 2 + (q + d) mod N + jj) with ((q + d) mod N + (N - (length lr - 2) / 2 + jj)) by lia.
    rewrite Nat.add_mod_idemp_l by lia. f_equal. lia. }
  rewrite Ek. destruct (H ((N - (length lr - 2) / 2 + q + jj) mod N) ltac:(apply Nat.mod_upper_bound; lia)) as (-> & ->).
  reflexivity.
Qed.

Section G.
Variable g : geom.
Hypothesis G : gwf g.
Hypothesis D : gdim g = 1.
Variable u : nat.
Let K := gK g.
Definition rl (s i : nat) : nat := (i + 2 ^ (K - s) * u) mod hs g s.

Lemma rl_in s i : i < hs g s -> rl s i < hs g s.
Proof. intros. unfold rl. apply Nat.mod_upper_bound. lia. Qed.
Lemma rl_step s i : s < K -> rl s i = (i + 2 * (2 ^ (K - S s) * u)) mod (2 * hs g (S s)).
Proof.
  intros Hs. unfold rl. destruct (hs_step g s G Hs) as (-> & _). f_equal. f_equal.
  replace (K - s) with (S (K - S s)) by lia. rewrite Nat.pow_succ_r'. lia.
Qed.
Lemma hs_pos' s : s < K -> 0 < hs g (S s).
Proof. intros Hs. destruct (hs_step g s G Hs) as (E & B). pose proof (gt_range g s G Hs). lia. Qed.

Lemma ap_rl x x' : (forall i, i < hs g 0 -> x' (rl 0 i) 0 = x i 0) ->
  forall s, s <= K -> forall i, i < hs g s -> ap g x' s (rl s i) 0 = ap g x s i 0.
Proof.
  intros H0. induction s; intros Hs i Hi; [apply H0; auto|].
  cbn [ap]. unfold ana_a. rewrite D. cbn [Nat.eqb]. destruct (hs_step g s G Hs) as (E & _).
  unfold rl at 1. rewrite E. apply afilt_rot; [apply hs_pos'; auto|].
  intros j Hj. rewrite <- rl_step by auto. apply IHs; lia.
Qed.

Lemma det_rl x x' s : (forall i, i < hs g 0 -> x' (rl 0 i) 0 = x i 0) -> s < K -> forall i, i < hs g (S s) ->
  afilt (hi_r (gt g)) (hs g s) (fun i' => ap g x' s i' 0) (rl (S s) i) =
  afilt (hi_r (gt g)) (hs g s) (fun i' => ap g x s i' 0) i.
Proof.
  intros H0 Hs i Hi. destruct (hs_step g s G Hs) as (E & _). unfold rl at 1. rewrite E.
  apply (afilt_rot _ _ _ (fun i' => ap g x s i' 0) (fun i' => ap g x' s i' 0)); [apply hs_pos'; auto|].
  intros j Hj. rewrite <- rl_step by auto. apply ap_rl; auto; lia.
Qed.

(** matrices *)
Definition rlm (s : nat) (m m' : mat T) : Prop := forall i, i < hs g s -> mel a0 m' (rl s i) 0 = mel a0 m i 0.
Definition rlch (ch ch' : decomposition T) : Prop :=
  (forall s m m', s < K -> nth_error ch s = Some m -> nth_error ch' s = Some m' -> rlm (S s) m m') /\
  (forall m m', nth_error ch K = Some m -> nth_error ch' K = Some m' -> rlm K m m').

Lemma spw1 : gspw g = 1. Proof. unfold gspw. rewrite D. reflexivity. Qed.
Lemma mel_mk1 h (f : nat -> nat -> T) i : i < h -> mel a0 (mk h 1 f) i 0 = f i 0.
Proof. intros. apply mel_mk; auto. Qed.
Lemma null1 h (d : nat -> nat -> T) s : den_apply 1 null_denoiser (mk h 1 d) s = mk h 1 d.
Proof. unfold den_apply. cbn [Nat.eqb]. unfold null_denoiser; cbn [den1]. rewrite <- (map_col0 h d). apply mcolvec_mk. Qed.

Lemma dec_rl x x' : (forall i, i < hs g 0 -> x' (rl 0 i) 0 = x i 0) ->
  rlch (dec_pure g null_denoiser x) (dec_pure g null_denoiser x').
Proof.
  intros H0. split.
  - intros s m m' Hs H1 H2.
    pose proof (dec_pure_nth_detail g null_denoiser x s 0 Hs ltac:(rewrite spw1; lia)) as E1.
    pose proof (dec_pure_nth_detail g null_denoiser x' s 0 Hs ltac:(rewrite spw1; lia)) as E2.
    rewrite spw1, Nat.mul_1_r, Nat.add_0_r in E1, E2. rewrite H1 in E1. rewrite H2 in E2.
    unfold detf, ana_d in E1, E2. rewrite D, (ws_1 g _ D) in E1, E2. cbn [Nat.eqb nth_error option_map] in E1, E2.
    rewrite null1 in E1, E2. injection E1 as ->. injection E2 as ->.
    intros i Hi. rewrite !mel_mk1 by (auto using rl_in). apply det_rl; auto.
  - intros m m' H1 H2. pose proof (dec_pure_nth_approx g null_denoiser x) as E1.
    pose proof (dec_pure_nth_approx g null_denoiser x') as E2. rewrite spw1, Nat.mul_1_r in E1, E2. fold K in E1, E2.
    rewrite H1 in E1. rewrite H2 in E2. injection E1 as ->. injection E2 as ->.
    unfold apm. rewrite (ws_1 g _ D). intros i Hi. rewrite !mel_mk1 by (auto using rl_in). apply ap_rl; auto.
Qed.

Lemma rc_rl ch ch' : layout g ch -> layout g ch' -> rlch ch ch' ->
  forall it, it <= K -> forall i, i < hs g (K - it) -> rc g ch' it (rl (K - it) i) 0 = rc g ch it i 0.
Proof.
  intros (N & _) (N' & _) (HD & HL). rewrite spw1, Nat.mul_1_r in N, N'. fold K in N, N'.
  assert (NE : forall q, q < K + 1 -> nth_error ch q = Some (nth q ch mempty) /\ nth_error ch' q = Some (nth q ch' mempty)).
  { intros q Hq. split; apply nth_error_nth'; lia. }
  induction it; intros Hit i Hi.
  - cbn [rc]. rewrite spw1, Nat.mul_1_r. fold K. rewrite Nat.sub_0_r in *. destruct (NE K ltac:(lia)) as (Q1 & Q2).
    apply (HL _ _ Q1 Q2); auto.
  - cbn [rc]. fold K. set (s := K - S it) in *. assert (Hs : s < K) by (unfold s; lia).
    assert (Es : K - it = S s) by (unfold s; lia). rewrite Es in IHit.
    unfold synth. rewrite D. cbn [Nat.eqb]. destruct (hs_step g s G Hs) as (E & B). pose proof (gt_range g s G Hs) as Ht.
    rewrite spw1, Nat.mul_1_r, Nat.add_0_r.
    rewrite rl_step by auto.
    apply (sfilt_rot _ _ _ _ (fun i => rc g ch it i 0) (fun i => chf ch s i 0) (fun i => rc g ch' it i 0) (fun i => chf ch' s i 0)).
    + apply hs_pos'; auto.
    + rewrite rev_length, lo_r_length by auto. assert (2 * Z.to_nat (gt g) - 2 = (Z.to_nat (gt g) - 1) * 2) as -> by lia.
      rewrite Nat.div_mul by lia. lia.
    + intros a Ha. fold (rl (S s) a). split; [apply IHit; auto; lia|].
      destruct (NE s ltac:(lia)) as (Q1 & Q2). apply (HD s _ _ Hs Q1 Q2); auto.
    + lia.
Qed.
End G.

(** ** API *)
Section P.
Variable p : params.
Hypothesis HA : accepted p.
Hypothesis HU : unpadded p.
Hypothesis D : dimension p = 1.
Variable u : nat.
Let g := geom_of p.
Let GW : gwf g := geom_wf p HA.
Lemma gD : gdim g = 1. Proof. unfold g. rewrite <- geom_dim by auto. exact D. Qed.
Let EK : gK g = nsteps p := K_nsteps p HA.
Lemma side0 : hs g 0 = drows p /\ gh g = drows p /\ dcols p = 1 /\ ws g 0 = 1 /\ gw g = 1.
Proof.
  destruct HU as (H1 & H2). rewrite <- H1. unfold g. rewrite (hs_level p HA). split; [auto|].
  rewrite <- (hs_level p HA), hs_0. split; [auto|].
  assert (dcols p = 1). { clear - HA D. destruct (acc_cases p HA) as [(n & E & _)|(w & h & E & _)]; unfold dcols, dimension in *; rewrite E in *; [auto|discriminate]. }
  split; [auto|]. split; [apply ws_1; apply gD|]. destruct GW as ([(_ & E)|E] & _); [exact E|]. rewrite gD in E. discriminate.
Qed.

Lemma rolled_rlm s (m m' : mat T) : mwf m -> mwf m' -> rows m = hs g s -> cols m = 1 -> rows m' = hs g s -> cols m' = 1 ->
  (rlm g u s m m' <-> rolled (2 ^ (nsteps p - s) * u) m m').
Proof.
  intros W W' R1 C1 R2 C2. unfold rlm, rolled, rl. rewrite EK, R1, C1, R2, C2.
  assert (I1 : forall i, i < hs g s -> nth_error (elts m) i = Some (mel a0 m i 0)).
  { intros i Hi. unfold mel. rewrite C1, Nat.mul_1_r, Nat.add_0_r. apply nth_error_nth'. rewrite W, R1, C1. lia. }
  assert (I2 : forall i, i < hs g s -> nth_error (elts m') i = Some (mel a0 m' i 0)).
  { intros i Hi. unfold mel. rewrite C2, Nat.mul_1_r, Nat.add_0_r. apply nth_error_nth'. rewrite W', R2, C2. lia. }
  split.
  - intros H. repeat (split; [auto|]). intros i Hi. rewrite I1 by auto. rewrite I2 by (apply Nat.mod_upper_bound; lia). f_equal. auto.
  - intros (_ & _ & _ & _ & _ & H) i Hi. specialize (H i Hi). rewrite I1 in H by auto.
    rewrite I2 in H by (apply Nat.mod_upper_bound; lia). congruence.
Qed.

Lemma bands1 : bands p = 1.
Proof. unfold bands. rewrite dim_1d, D. reflexivity. Qed.
Lemma sub1 (ch : list (mat T)) s m : has_layout p ch -> s < nsteps p -> nth_error ch s = Some m ->
  mwf m /\ rows m = hs g (S s) /\ cols m = 1.
Proof.
  intros (_ & L & _) Hs H. rewrite bands1 in L. specialize (L s 0 m Hs ltac:(lia)). rewrite Nat.mul_1_r, Nat.add_0_r in L.
  destruct (L H) as (W & R1 & C1). unfold g. rewrite (hs_level p HA). replace (S s) with (s + 1) by lia. split; [auto|]. split; [auto|].
  rewrite C1. unfold level_cols. rewrite dim_1d, D. reflexivity.
Qed.
Lemma app1 (ch : list (mat T)) m : has_layout p ch -> nth_error ch (nsteps p) = Some m ->
  mwf m /\ rows m = hs g (nsteps p) /\ cols m = 1.
Proof.
  intros (_ & _ & L) H. rewrite bands1, Nat.mul_1_r in L.
  destruct (L m H) as (W & R1 & C1). unfold g. rewrite (hs_level p HA). split; [auto|]. split; [auto|].
  rewrite C1. unfold level_cols. rewrite dim_1d, D. reflexivity.
Qed.
Lemma chan_rolled ch ch' : has_layout p ch -> has_layout p ch' -> (rlch g u ch ch' <-> rolled_channel p u ch ch').
Proof.
  intros L L'. unfold rlch, rolled_channel. rewrite EK.
  split; intros (H1 & H2); (split; [intros s m m' Hs E1 E2|intros m m' E1 E2]).
  - destruct (sub1 ch s m L Hs E1) as (W & R1 & C1). destruct (sub1 ch' s m' L' Hs E2) as (W' & R2 & C2).
    replace (nsteps p - 1 - s) with (nsteps p - S s) by lia. apply rolled_rlm; auto.
  - destruct (app1 ch m L E1) as (W & R1 & C1). destruct (app1 ch' m' L' E2) as (W' & R2 & C2).
    pose proof (H2 m m' E1 E2) as H. apply (rolled_rlm (nsteps p)) in H; auto.
    rewrite Nat.sub_diag, Nat.pow_0_r, Nat.mul_1_l in H. exact H.
  - destruct (sub1 ch s m L Hs E1) as (W & R1 & C1). destruct (sub1 ch' s m' L' Hs E2) as (W' & R2 & C2).
    apply rolled_rlm; auto. pose proof (H1 s m m' Hs E1 E2) as H.
    replace (nsteps p - 1 - s) with (nsteps p - S s) in H by lia. exact H.
  - destruct (app1 ch m L E1) as (W & R1 & C1). destruct (app1 ch' m' L' E2) as (W' & R2 & C2).
    apply (rolled_rlm (nsteps p)); auto. rewrite Nat.sub_diag, Nat.pow_0_r, Nat.mul_1_l. auto.
Qed.

Lemma padf1 m : shaped p m -> forall i, i < hs g 0 -> padf p m i 0 = mel a0 m i 0.
Proof.
  intros (W & Rm & C) i Hi. destruct side0 as (E0 & E1 & E2 & _ & E3). unfold padf. fold g.
  rewrite E1, E2, E3, !Nat.sub_diag. change (0 / 2) with 0. rewrite !Nat.sub_0_r. rewrite Nat.min_l by lia. reflexivity.
Qed.
Lemma com1 k (ch : decomposition T) : k <= gK g ->
  com_of p k ch = mk (hs g k) 1 (fun i j => (if 0 <? k then ascale (dimension p) k (rc g ch (gK g - k) i j) else rc g ch (gK g - k) i j)).
Proof.
  intros Hk. destruct side0 as (E0 & E1 & E2 & _ & E3). unfold com_of, scalem, cropf. fold g. cbv zeta. rewrite D. cbn [Nat.eqb].
  assert (E : drows p / 2 ^ k = hs g k) by (unfold hs; rewrite E1; reflexivity).
  rewrite E, (ws_1 g k gD), !Nat.sub_diag. change (0 / 2) with 0. destruct (0 <? k).
  - cbn [rows cols elts mk]. unfold mk. f_equal. rewrite map_map. reflexivity.
  - reflexivity.
Qed.

Lemma F2_len1 {X Y} (P : X -> Y -> Prop) l l' : Forall2 P l l' -> length l = length l'.
Proof. induction 1; cbn; auto. Qed.
Lemma F2_impl1 {X Y} (P Q : X -> Y -> Prop) l l' (U : X -> Prop) (B : Y -> Prop) :
  (forall x y, U x -> B y -> P x y -> Q x y) -> Forall U l -> Forall B l' -> Forall2 P l l' -> Forall2 Q l l'.
Proof. intros H FA FB F. induction F; inversion FA; inversion FB; subst; constructor; auto. Qed.

Lemma decompose_rolled (b b' : buffer T) data data' :
  reachable p b -> reachable p b' ->
  (1 <= signum p)%Z -> Z.of_nat (length data) = signum p -> Forall (shaped p) data ->
  Forall2 (rolled (2 ^ nsteps p * u)) data data' ->
  exists b1 b1', decompose b data null_denoiser = Ok (true, b1) /\ decompose b' data' null_denoiser = Ok (true, b1') /\
    bpar b1 = p /\ bpar b1' = p /\ Forall (has_layout p) (bdec b1) /\ Forall (has_layout p) (bdec b1') /\
    Forall2 (rolled_channel p u) (bdec b1) (bdec b1').
Proof.
  intros HR HR' H1 HL HS F. destruct side0 as (E0 & E1 & E2 & _ & E3).
  assert (HS' : Forall (shaped p) data').
  { clear HL. induction F as [|m m' l l' (W & W' & C1 & C2 & R1 & _) F IH]; [constructor|]. inversion HS as [|? ? (Wm & Rm & Cm) HSl]; subst.
    constructor; auto. split; [auto|]. lia. }
  assert (K0 : @keeps_shape T null_denoiser) by (split; [reflexivity|intros m s W; split; auto]).
  exists (Buffer p (map (dec_of p null_denoiser) data)), (Buffer p (map (dec_of p null_denoiser) data')).
  split; [apply safe_ok; auto|]. split.
  { apply safe_ok; auto. rewrite <- (F2_len1 _ _ _ F). auto. }
  split; [reflexivity|]. split; [reflexivity|]. cbn [bdec].
  split; [apply Forall_forall; intros c Hc; apply in_map_iff in Hc as (m & <- & _); apply dec_of_layout; auto|].
  split; [apply Forall_forall; intros c Hc; apply in_map_iff in Hc as (m & <- & _); apply dec_of_layout; auto|].
  clear HL. induction F as [|m m' l l' TR F IH]; cbn [map]; inversion HS as [|? ? S1 HSl]; inversion HS' as [|? ? S2 HSl']; subst; constructor; auto.
  apply chan_rolled; try (apply dec_of_layout; auto). unfold dec_of. fold g. apply dec_rl; auto; [apply gD|].
  intros i Hi. rewrite !padf1; auto; [|apply rl_in; auto].
  destruct S1 as (W & R1 & C1). destruct S2 as (W' & R2 & C2).
  assert (Q : rlm g u 0 m m') by (apply rolled_rlm; try congruence; rewrite Nat.sub_0_r; exact TR). apply Q; auto. apply gD.
Qed.

Lemma compose_rolled (b b' : buffer T) sf :
  bpar b = p -> bpar b' = p -> Z.of_nat (length (bdec b)) = signum p ->
  Forall (has_layout p) (bdec b) -> Forall (has_layout p) (bdec b') ->
  Forall2 (rolled_channel p u) (bdec b) (bdec b') -> (0 <= sf <= steps p)%Z ->
  exists out out', compose b sf = Ok (true, out) /\ compose b' sf = Ok (true, out') /\
    Forall2 (rolled (2 ^ (nsteps p - Z.to_nat sf) * u)) out out'.
Proof.
  intros E E' HL L L' F Hsf.
  assert (Hk : Z.to_nat sf <= gK g) by (unfold g; rewrite <- geom_K by auto; lia).
  exists (map (com_of p (Z.to_nat sf)) (bdec b)), (map (com_of p (Z.to_nat sf)) (bdec b')).
  split; [apply compose_ok; auto; apply Forall_forall; auto|]. split.
  { apply compose_ok; auto; [|apply Forall_forall; auto]. rewrite <- HL. f_equal. symmetry. exact (F2_len1 _ _ _ F). }
  clear E E' HL. set (l := bdec b) in *. set (l' := bdec b') in *. clearbody l l'.
  induction F as [|c c' l l' TR F IH]; cbn [map]; inversion L as [|? ? L1 Ll]; inversion L' as [|? ? L2 Ll']; subst; constructor; auto.
  rewrite !com1 by auto. apply rolled_rlm; auto using mk_wf.
  intros i Hi. rewrite (mel_mk1 _ _ i) by auto. rewrite (mel_mk1 _ _ (rl g u _ i)) by (apply rl_in; auto using gD).
  assert (Q : rc g c' (gK g - Z.to_nat sf) (rl g u (Z.to_nat sf) i) 0 = rc g c (gK g - Z.to_nat sf) i 0).
  { pose proof (rc_rl g GW gD u c c') as Q. apply chan_rolled in TR; auto.
    apply layout_iff in L1; auto. apply layout_iff in L2; auto. specialize (Q L1 L2 TR (gK g - Z.to_nat sf) ltac:(lia)).
    replace (gK g - (gK g - Z.to_nat sf)) with (Z.to_nat sf) in Q by lia. apply Q; auto. }
  rewrite Q. reflexivity.
Qed.
End P.
End T.
