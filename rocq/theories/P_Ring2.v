(** * P_Ring2: rotations (every wavelet) and mirrors (DB1). *)
Require Import List Bool Arith ZArith Lia Reals Lra.
Require Import ZifyBool.
Require Import Verif.M_Base Verif.M_Params Verif.M_Padding Verif.M_Wavelet Verif.M_Buffer Verif.M_Real.
Require Import Verif.S_Params Verif.S_Buffer Verif.S_Exact Verif.S_Ring.
Require Import Verif.P_Base Verif.P_Params Verif.P_Padding Verif.P_Wavelet Verif.P_Buffer Verif.P_Impl Verif.P_Api Verif.P_Api2
  Verif.P_Sum Verif.P_Lin Verif.P_PR Verif.P_L2 Verif.P_Rec Verif.P_Exact Verif.P_Ring.
Import ListNotations.
Open Scope nat_scope.
Local Existing Instance exactR.

(** ** one level *)
Lemma id_ana n N M d2 : Rana n N M (fun j => j) (fun i => i) 1 d2.
Proof.
  intros x x' H i Hi. assert (E : forall k, mv n M x' k = mv n M x k) by (intros; apply mv_ext; auto).
  split; [apply E|]. intros _. rewrite E. ring.
Qed.
Lemma id_syn N M d2 : Rsyn (2 * N) N M (fun j => j) (fun i => i) 1 True /\ (~ d2 -> Rsyn 1 1 M (fun j => j) (fun i => i) 1 d2).
Proof.
  split.
  - intros y y' H c Hc. apply mvT_ext. intros k Hk. destruct (Nat.lt_ge_cases k N) as [L|L].
    + apply (H k L).
    + destruct (H (k - N) ltac:(lia)) as (_ & E). replace k with (N + (k - N)) by lia. rewrite (E I). ring.
  - intros _ y y' H c Hc. apply mvT_ext. intros k Hk. replace k with 0 by lia. apply (H 0 ltac:(lia)).
Qed.

Lemma ana_any n N M f F e d2 : Rana n N M f F e True -> Rana n N M f F e d2.
Proof. intros H x x' Hx i Hi. destruct (H x x' Hx i Hi) as (H1 & H2). auto. Qed.
Lemma syn_any n N M f F e (d2 : Prop) : d2 -> Rsyn n N M f F e True -> Rsyn n N M f F e d2.
Proof. intros D H y y' Hy c Hc. apply (H y y'); auto. intros i Hi. destruct (Hy i Hi) as (H1 & H2). auto. Qed.

Lemma mod2 N a b : 0 < N -> (2 * (a mod N) + b) mod (2 * N) = (2 * a + b) mod (2 * N).
Proof.
  intros HN. pose proof (Nat.div_mod a N ltac:(lia)) as E. rewrite E at 2.
  replace (2 * (N * (a / N) + a mod N) + b) with (2 * (a mod N) + b + (a / N) * (2 * N)) by lia.
  rewrite Nat.mod_add by lia. reflexivity.
Qed.

Lemma rot_ana t N d : 0 < N -> Rana (2 * N) N (HM t (2 * N)) (fun j => (j + 2 * d) mod (2 * N)) (fun i => (i + d) mod N) 1 True.
Proof.
  intros HN x x' H i Hi. unfold HM.
  assert (Hm : (i + d) mod N < N) by (apply Nat.mod_upper_bound; lia).
  destruct (AM_A (@lo_r R exactR t) (@hi_r R exactR t) N x i Hi) as (-> & ->).
  destruct (AM_A (@lo_r R exactR t) (@hi_r R exactR t) N x' _ Hm) as (-> & ->).
  assert (E : forall k, x' ((2 * ((i + d) mod N) + k) mod (2 * N)) = x ((2 * i + k) mod (2 * N))).
  { intros k. rewrite <- (H ((2 * i + k) mod (2 * N))) by (apply Nat.mod_upper_bound; lia). f_equal.
    rewrite mod2 by auto. rewrite Nat.add_mod_idemp_l by lia. f_equal. lia. }
  split; [|intros _; rewrite Rmult_1_l]; apply rsum_ext; intros k Hk; rewrite E; reflexivity.
Qed.
Lemma rot_syn t N d : (1 <= t <= 10)%Z -> Z.to_nat t <= N ->
  Rsyn (2 * N) N (HM t (2 * N)) (fun j => (j + 2 * d) mod (2 * N)) (fun i => (i + d) mod N) 1 True.
Proof.
  intros Ht HN y y' H c Hc. unfold HM. assert (N0 : 0 < N) by lia.
  assert (L1 : length (@lo_r R exactR t) = 2 * Z.to_nat t) by (apply lo_r_length; auto).
  assert (L2 : length (@hi_r R exactR t) = 2 * Z.to_nat t) by (rewrite hi_r_length; auto).
  set (q := c / 2). set (r := c mod 2).
  assert (Ec : c = 2 * q + r) by (unfold q, r; apply Nat.div_mod; lia).
  assert (Hr : r < 2) by (apply Nat.mod_upper_bound; lia). assert (Hq : q < N) by lia.
  assert (Hm : (q + d) mod N < N) by (apply Nat.mod_upper_bound; lia).
  replace ((c + 2 * d) mod (2 * N)) with (2 * ((q + d) mod N) + r).
  2:{ rewrite <- (Nat.mod_small (2 * ((q + d) mod N) + r) (2 * N)) by lia. rewrite mod2 by auto. f_equal. lia. }
  rewrite Ec. rewrite !(AM_T _ _ (Z.to_nat t)) by auto.
  assert (E : forall b, b < Z.to_nat t -> ((q + d) mod N + N - b) mod N = ((q + N - b) mod N + d) mod N).
  { intros b Hb. rewrite Nat.add_mod_idemp_l by lia.
    replace ((q + d) mod N + N - b) with ((q + d) mod N + (N - b)) by lia. rewrite Nat.add_mod_idemp_l by lia. f_equal. lia. }
  f_equal; apply rsum_ext; intros b Hb; rewrite (E b Hb); f_equal;
    destruct (H ((q + N - b) mod N) ltac:(apply Nat.mod_upper_bound; lia)) as (H1 & H2).
  - exact H1.
  - rewrite (H2 I). ring.
Qed.

Lemma mir_ana N : 0 < N -> Rana (2 * N) N (HM 1 (2 * N)) (fun j => 2 * N - 1 - j) (fun i => N - 1 - i) (-1) True.
Proof.
  intros HN x x' H i Hi. destruct (HM1 N x i Hi) as (-> & ->). destruct (HM1 N x' (N - 1 - i) ltac:(lia)) as (-> & ->).
  pose proof (H (2 * i) ltac:(lia)) as E1. pose proof (H (2 * i + 1) ltac:(lia)) as E2.
  replace (2 * N - 1 - 2 * i) with (2 * (N - 1 - i) + 1) in E1 by lia.
  replace (2 * N - 1 - (2 * i + 1)) with (2 * (N - 1 - i)) in E2 by lia.
  rewrite E1, E2. split; [ring|intros _; ring].
Qed.
Lemma HM1T N y q r : q < N -> r < 2 -> mvT (2 * N) (HM 1 (2 * N)) y (2 * q + r) =
  (sqrt 2 / 2 * y q + (if r =? 0 then sqrt 2 / 2 else - (sqrt 2 / 2)) * y (N + q)%nat)%R.
Proof.
  intros Hq Hr. unfold HM. rewrite (AM_T _ _ 1) by (rewrite ?lo1, ?hi1; cbn [length]; lia).
  cbn [rsum]. rewrite lo1, hi1. rewrite Nat.sub_0_r.
  replace ((q + N) mod N) with q by (replace (q + N) with (q + 1 * N) by lia; rewrite Nat.mod_add by lia; symmetry; apply Nat.mod_small; auto).
  destruct r as [|[|r]]; [| |lia]; cbn [Nat.mul Nat.add nth Nat.eqb]; ring.
Qed.
Lemma mir_syn N : 0 < N -> Rsyn (2 * N) N (HM 1 (2 * N)) (fun j => 2 * N - 1 - j) (fun i => N - 1 - i) (-1) True.
Proof.
  intros HN y y' H c Hc. set (q := c / 2). set (r := c mod 2).
  assert (Ec : c = 2 * q + r) by (unfold q, r; apply Nat.div_mod; lia).
  assert (Hr : r < 2) by (apply Nat.mod_upper_bound; lia). assert (Hq : q < N) by lia.
  rewrite Ec. replace (2 * N - 1 - (2 * q + r)) with (2 * (N - 1 - q) + (1 - r)) by lia.
  rewrite !HM1T by lia. destruct (H q Hq) as (-> & E). rewrite (E I).
  destruct r as [|[|r]]; [| |lia]; cbn [Nat.sub Nat.eqb]; ring.
Qed.

(** ** all levels *)
Section L.
Variable g : geom.
Hypothesis G : gwf g.
Let K := gK g.

Definition rot (size : nat -> nat) (u s i : nat) : nat := (i + 2 ^ (K - s) * u) mod size s.
Definition mir (size : nat -> nat) (s i : nat) : nat := size s - 1 - i.
Definition same (s i : nat) : nat := i.

Lemma pow_step s : s < K -> 2 ^ (K - s) = 2 * 2 ^ (K - S s).
Proof. intros H. replace (K - s) with (S (K - S s)) by lia. apply Nat.pow_succ_r'. Qed.

Lemma mir_in size s i : i < size s -> mir size s i < size s.
Proof. unfold mir. lia. Qed.
Lemma rot_in size u s i : i < size s -> rot size u s i < size s.
Proof. intros. unfold rot. apply Nat.mod_upper_bound. lia. Qed.

Lemma row_rot u s : s < K ->
  Rana (hs g s) (hs g (S s)) (HM (gt g) (hs g s)) (rot (hs g) u s) (rot (hs g) u (S s)) 1 True /\
  Rsyn (hs g s) (hs g (S s)) (HM (gt g) (hs g s)) (rot (hs g) u s) (rot (hs g) u (S s)) 1 True.
Proof.
  intros Hs. destruct (hs_step g s G Hs) as (E & B). pose proof (gt_range g s G Hs).
  unfold rot. rewrite (pow_step s Hs), E. 
  replace (2 * 2 ^ (K - S s) * u) with (2 * (2 ^ (K - S s) * u)) by lia.
  split; [apply rot_ana; lia|apply rot_syn; lia].
Qed.
Lemma col_rot v s : s < K ->
  Rana (ws g s) (ws g (S s)) (WM g (ws g s)) (rot (ws g) v s) (rot (ws g) v (S s)) 1 (gdim g = 2) /\
  Rsyn (ws g s) (ws g (S s)) (WM g (ws g s)) (rot (ws g) v s) (rot (ws g) v (S s)) 1 (gdim g = 2).
Proof.
  intros Hs. destruct (gdim_cases g G) as [D|D].
  - unfold rot, WM. rewrite !(ws_1 g _ D), D. cbn [Nat.eqb]. split.
    + intros x x' H i Hi. rewrite !Nat.mod_1_r in *. split; [|intros; lia]. replace i with 0 by lia.
      apply mv_ext. intros j Hj. replace j with 0 by lia. specialize (H 0 ltac:(lia)).
      rewrite Nat.mod_1_r in H. exact H.
    + intros y y' H c Hc. rewrite !Nat.mod_1_r in *. replace c with 0 by lia.
      apply mvT_ext. intros j Hj. replace j with 0 by lia. destruct (H 0 ltac:(lia)) as (H1 & _).
      rewrite Nat.mod_1_r in H1. exact H1.
  - destruct (ws_step g s G D Hs) as (E & B). pose proof (gt_range g s G Hs).
    unfold rot, WM. rewrite D. cbn [Nat.eqb]. rewrite (pow_step s Hs), E.
    replace (2 * 2 ^ (K - S s) * v) with (2 * (2 ^ (K - S s) * v)) by lia.
    split; [apply ana_any, rot_ana; lia|apply syn_any; auto; apply rot_syn; lia].
Qed.

(** mirrors *)
Hypothesis T1 : 0 < K -> gt g = 1%Z.
Lemma row_mir s : s < K ->
  Rana (hs g s) (hs g (S s)) (HM (gt g) (hs g s)) (mir (hs g) s) (mir (hs g) (S s)) (-1) True /\
  Rsyn (hs g s) (hs g (S s)) (HM (gt g) (hs g s)) (mir (hs g) s) (mir (hs g) (S s)) (-1) True.
Proof.
  intros Hs. destruct (hs_step g s G Hs) as (E & B). rewrite T1 in * by lia.
  unfold mir. rewrite E. split; [apply mir_ana; lia|apply mir_syn; lia].
Qed.
Lemma row_same s : s < K ->
  Rana (hs g s) (hs g (S s)) (HM (gt g) (hs g s)) (same s) (same (S s)) 1 True /\
  Rsyn (hs g s) (hs g (S s)) (HM (gt g) (hs g s)) (same s) (same (S s)) 1 True.
Proof.
  intros Hs. destruct (hs_step g s G Hs) as (E & B). split; [apply id_ana|]. rewrite E. apply (id_syn (hs g (S s)) _ False).
Qed.
Lemma col_same s : s < K ->
  Rana (ws g s) (ws g (S s)) (WM g (ws g s)) (same s) (same (S s)) 1 (gdim g = 2) /\
  Rsyn (ws g s) (ws g (S s)) (WM g (ws g s)) (same s) (same (S s)) 1 (gdim g = 2).
Proof.
  intros Hs. split; [apply id_ana|]. destruct (gdim_cases g G) as [D|D].
  - rewrite !(ws_1 g _ D). apply (id_syn 0); auto. rewrite D. discriminate.
  - destruct (ws_step g s G D Hs) as (E & B). apply syn_any; auto. rewrite E. apply (id_syn (ws g (S s)) _ False).
Qed.
Lemma col_mir s : s < K ->
  Rana (ws g s) (ws g (S s)) (WM g (ws g s)) (mir (ws g) s) (mir (ws g) (S s)) (-1) (gdim g = 2) /\
  Rsyn (ws g s) (ws g (S s)) (WM g (ws g s)) (mir (ws g) s) (mir (ws g) (S s)) (-1) (gdim g = 2).
Proof.
  intros Hs. destruct (gdim_cases g G) as [D|D].
  - unfold mir. rewrite !(ws_1 g _ D), D. cbn [Nat.sub]. split.
    + intros x x' H i Hi. split; [|intros; lia]. replace i with 0 by lia.
      apply mv_ext. intros j Hj. replace j with 0 by lia. apply (H 0). lia.
    + intros y y' H c Hc. replace c with 0 by lia.
      apply mvT_ext. intros j Hj. replace j with 0 by lia. apply (H 0 ltac:(lia)).
  - destruct (ws_step g s G D Hs) as (E & B). unfold WM. rewrite D. cbn [Nat.eqb]. rewrite T1 in * by lia.
    unfold mir. rewrite E. split; [apply ana_any, mir_ana; lia|apply syn_any; auto; apply mir_syn; lia].
Qed.
End L.

Lemma F2_impl' {X Y} (P Q : X -> Y -> Prop) l l' (A : X -> Prop) (B : Y -> Prop) :
  (forall x y, A x -> B y -> P x y -> Q x y) -> Forall A l -> Forall B l' -> Forall2 P l l' -> Forall2 Q l l'.
Proof. intros H FA FB F. induction F; inversion FA; inversion FB; subst; constructor; auto. Qed.

(** ** statements *)
Section S.
Variable p : params.
Hypothesis HA : accepted p.
Hypothesis HU : unpadded p.
Let g := geom_of p.
Let GW : gwf g := geom_wf p HA.

Lemma sizes_0 : hs g 0 = drows p /\ ws g 0 = dcols p.
Proof. apply unp_sides; auto. Qed.
Lemma sub_sized (ch : list (mat R)) s i m : has_layout p ch -> s < nsteps p -> i < bands p ->
  nth_error ch (s * bands p + i) = Some m -> mwf m /\ rows m = hs g (S s) /\ cols m = ws g (S s).
Proof.
  intros (_ & L & _) Hs Hi H. destruct (L s i m Hs Hi H) as (W & R1 & C1). unfold g. rewrite hs_level, ws_level by auto.
  replace (S s) with (s + 1) by lia. auto.
Qed.
Lemma app_sized (ch : list (mat R)) m : has_layout p ch ->
  nth_error ch (nsteps p * bands p) = Some m -> mwf m /\ rows m = hs g (nsteps p) /\ cols m = ws g (nsteps p).
Proof.
  intros (_ & _ & L) H. destruct (L m H) as (W & R1 & C1). unfold g. rewrite hs_level, ws_level by auto. auto.
Qed.
Let EK : gK g = nsteps p := K_nsteps p HA.
Let EB : gspw g = bands p := spw_bands p HA.

(** rotations *)
Section Rot.
Variables u v : nat.
Let fr := rot g (hs g) u.
Let fc := rot g (ws g) v.

Lemma mvd_rot s m m' : mwf m -> mwf m' -> rows m = hs g s -> cols m = ws g s -> rows m' = hs g s -> cols m' = ws g s ->
  (mvd g fr fc s 1 m m' <-> rotated (2 ^ (nsteps p - s) * u) (2 ^ (nsteps p - s) * v) m m').
Proof.
  intros W W' R1 C1 R2 C2. unfold mvd, rotated, same_size, fr, fc, rot. rewrite EK, R1, C1.
  split.
  - intros H. split; [rewrite R2, C2; auto|]. intros i j Hi Hj. rewrite <- (Rmult_1_l (at_ m i j)). apply H; auto.
  - intros (_ & H) i j Hi Hj. rewrite Rmult_1_l. apply H; auto.
Qed.
Lemma bsign1 b : bsign 1 1 b = 1%R.
Proof. unfold bsign. destruct (b =? 0), (b =? 1); ring. Qed.

Lemma chan_rot ch ch' : has_layout p ch -> has_layout p ch' ->
  (chan_sym g fr fc 1 1 ch ch' <-> rotated_channel p u v ch ch').
Proof.
  intros L L'. unfold chan_sym, rotated_channel. rewrite EK, EB. split; intros (H1 & H2); (split; [intros s b m m' Hs Hb E1 E2|intros m m' E1 E2]).
  - destruct (sub_sized ch s b m L Hs Hb E1) as (W & R1 & C1). destruct (sub_sized ch' s b m' L' Hs Hb E2) as (W' & R2 & C2).
    replace (nsteps p - 1 - s) with (nsteps p - S s) by lia. apply mvd_rot; auto.
    rewrite <- (bsign1 b). apply H1; auto.
  - destruct (app_sized ch m L E1) as (W & R1 & C1). destruct (app_sized ch' m' L' E2) as (W' & R2 & C2).
    pose proof (H2 m m' E1 E2) as H. apply (mvd_rot (nsteps p)) in H; auto.
    rewrite Nat.sub_diag, Nat.pow_0_r, !Nat.mul_1_l in H. exact H.
  - destruct (sub_sized ch s b m L Hs Hb E1) as (W & R1 & C1). destruct (sub_sized ch' s b m' L' Hs Hb E2) as (W' & R2 & C2).
    rewrite bsign1. apply mvd_rot; auto. pose proof (H1 s b m m' Hs Hb E1 E2) as H.
    replace (nsteps p - 1 - s) with (nsteps p - S s) in H by lia. exact H.
  - destruct (app_sized ch m L E1) as (W & R1 & C1). destruct (app_sized ch' m' L' E2) as (W' & R2 & C2).
    apply (mvd_rot (nsteps p)); auto. rewrite Nat.sub_diag, Nat.pow_0_r, !Nat.mul_1_l. auto.
Qed.

Lemma rot_facts :
  (forall s i, s <= gK g -> i < hs g s -> fr s i < hs g s) /\ (forall s i, s <= gK g -> i < ws g s -> fc s i < ws g s) /\
  (forall s, s < gK g -> Rana (hs g s) (hs g (S s)) (HM (gt g) (hs g s)) (fr s) (fr (S s)) 1 True) /\
  (forall s, s < gK g -> Rsyn (hs g s) (hs g (S s)) (HM (gt g) (hs g s)) (fr s) (fr (S s)) 1 True) /\
  (forall s, s < gK g -> Rana (ws g s) (ws g (S s)) (WM g (ws g s)) (fc s) (fc (S s)) 1 (gdim g = 2)) /\
  (forall s, s < gK g -> Rsyn (ws g s) (ws g (S s)) (WM g (ws g s)) (fc s) (fc (S s)) 1 (gdim g = 2)).
Proof.
  unfold fr, fc. split; [intros; apply rot_in; auto|]. split; [intros; apply rot_in; auto|].
  split; [intros s Hs; apply (row_rot g GW u s Hs)|]. split; [intros s Hs; apply (row_rot g GW u s Hs)|].
  split; intros s Hs; apply (col_rot g GW v s Hs).
Qed.

Lemma decompose_rotated (b b' : buffer R) data data' :
  reachable p b -> reachable p b' ->
  (1 <= signum p)%Z -> Z.of_nat (length data) = signum p -> Forall (shaped p) data ->
  Forall2 (rotated (2 ^ nsteps p * u) (2 ^ nsteps p * v)) data data' ->
  exists b1 b1', decompose b data null_denoiser = Ok (true, b1) /\ decompose b' data' null_denoiser = Ok (true, b1') /\
    bpar b1 = p /\ bpar b1' = p /\ Forall (has_layout p) (bdec b1) /\ Forall (has_layout p) (bdec b1') /\
    Forall2 (rotated_channel p u v) (bdec b1) (bdec b1').
Proof.
  intros HR HR' H1 HL HS F.
  assert (HS' : Forall (shaped p) data').
  { clear HL. induction F as [|m m' l l' ((W & W' & R1 & C1) & _) F IH]; [constructor|]. inversion HS as [|? ? (Wm & Rm & Cm) HSl]; subst.
    constructor; auto. split; [auto|]. lia. }
  destruct rot_facts as (A1 & A2 & A3 & A4 & A5 & A6).
  destruct (decompose_sym p HA HU fr fc 1 1 A1 A2 A3 A5 A6 b b' data data')
    as (b1 & b1' & Q1 & Q2 & Q3 & Q4 & Q5 & Q6 & Q7); auto.
  - apply (F2_impl' (rotated (2 ^ nsteps p * u) (2 ^ nsteps p * v)) _ _ _ (shaped p) (shaped p)); auto.
    intros m m' (W & R1 & C1) (W' & R2 & C2) H. destruct sizes_0 as (Z1 & Z2).
    apply mvd_rot; try congruence. rewrite Nat.sub_0_r. exact H.
  - exists b1, b1'. split; [exact Q1|]. split; [exact Q2|]. split; [exact Q3|]. split; [exact Q4|]. split; [exact Q5|]. split; [exact Q6|].
    apply (F2_impl' (chan_sym g fr fc 1 1) _ _ _ (has_layout p) (has_layout p)); auto. intros c c' L L' H. apply chan_rot; auto.
Qed.

Lemma compose_rotated (b b' : buffer R) sf :
  bpar b = p -> bpar b' = p -> Z.of_nat (length (bdec b)) = signum p ->
  Forall (has_layout p) (bdec b) -> Forall (has_layout p) (bdec b') ->
  Forall2 (rotated_channel p u v) (bdec b) (bdec b') -> (0 <= sf <= steps p)%Z ->
  exists out out', compose b sf = Ok (true, out) /\ compose b' sf = Ok (true, out') /\
    Forall2 (rotated (2 ^ (nsteps p - Z.to_nat sf) * u) (2 ^ (nsteps p - Z.to_nat sf) * v)) out out'.
Proof.
  intros E E' HL L L' F Hsf.
  destruct rot_facts as (A1 & A2 & A3 & A4 & A5 & A6).
  destruct (compose_sym p HA HU fr fc 1 1 A1 A2 A4 A6 b b' sf)
    as (out & out' & Q1 & Q2 & Q3 & Q4 & Q5); auto.
  - apply (F2_impl' (rotated_channel p u v) _ _ _ (has_layout p) (has_layout p)); auto. intros c c' Lc Lc' H. apply chan_rot; auto.
  - exists out, out'. split; [exact Q1|]. split; [exact Q2|].
    apply (F2_impl' (mvd g fr fc (Z.to_nat sf) 1) _ _ _ (sized (hs g (Z.to_nat sf)) (ws g (Z.to_nat sf))) (sized (hs g (Z.to_nat sf)) (ws g (Z.to_nat sf)))); auto.
    intros m m' (W & R1 & C1) (W' & R2 & C2) H. apply mvd_rot; auto.
Qed.
End Rot.

(** mirrors *)
Section Mir.
Hypothesis T1 : wtype p = 1%Z.
Variable ud : bool.
Let fr := if ud then mir (hs g) else same.
Let fc := if ud then same else mir (ws g).
Let er : R := if ud then (-1)%R else 1%R.
Let ec : R := if ud then 1%R else (-1)%R.

Lemma mvd_mir s e m m' : mwf m -> mwf m' -> rows m = hs g s -> cols m = ws g s -> rows m' = hs g s -> cols m' = ws g s ->
  (mvd g fr fc s e m m' <-> mirrored ud e m m').
Proof.
  intros W W' R1 C1 R2 C2. unfold mvd, mirrored, same_size, fr, fc, mir, same. rewrite R1, C1, R2, C2.
  destruct ud; (split; [intros H; split; [auto|exact H]|intros (_ & H); exact H]).
Qed.
Lemma bsign_mir b : b < bands p -> bsign er ec b = mirror_sign ud b.
Proof.
  intros Hb. unfold bsign, mirror_sign, er, ec. unfold bands in Hb.
  destruct ud; destruct b as [|[|b]]; cbn [Nat.eqb]; ring.
Qed.

Lemma chan_mir ch ch' : has_layout p ch -> has_layout p ch' ->
  (chan_sym g fr fc er ec ch ch' <-> mirrored_channel p ud ch ch').
Proof.
  intros L L'. unfold chan_sym, mirrored_channel. rewrite EK, EB. split; intros (H1 & H2); (split; [intros s b m m' Hs Hb E1 E2|intros m m' E1 E2]).
  - destruct (sub_sized ch s b m L Hs Hb E1) as (W & R1 & C1). destruct (sub_sized ch' s b m' L' Hs Hb E2) as (W' & R2 & C2).
    apply (mvd_mir (S s)); auto. rewrite <- bsign_mir by auto. apply H1; auto.
  - destruct (app_sized ch m L E1) as (W & R1 & C1). destruct (app_sized ch' m' L' E2) as (W' & R2 & C2).
    apply (mvd_mir (nsteps p)); auto.
  - destruct (sub_sized ch s b m L Hs Hb E1) as (W & R1 & C1). destruct (sub_sized ch' s b m' L' Hs Hb E2) as (W' & R2 & C2).
    rewrite bsign_mir by auto. apply (mvd_mir (S s)); auto. apply (H1 s b m m'); auto.
  - destruct (app_sized ch m L E1) as (W & R1 & C1). destruct (app_sized ch' m' L' E2) as (W' & R2 & C2).
    apply (mvd_mir (nsteps p)); auto.
Qed.

Lemma g1 : gt g = 1%Z.
Proof. unfold g. rewrite <- geom_t by auto. exact T1. Qed.
Lemma mir_facts : 
  (forall s i, s <= gK g -> i < hs g s -> fr s i < hs g s) /\ (forall s i, s <= gK g -> i < ws g s -> fc s i < ws g s) /\
  (forall s, s < gK g -> Rana (hs g s) (hs g (S s)) (HM (gt g) (hs g s)) (fr s) (fr (S s)) er True) /\
  (forall s, s < gK g -> Rsyn (hs g s) (hs g (S s)) (HM (gt g) (hs g s)) (fr s) (fr (S s)) er True) /\
  (forall s, s < gK g -> Rana (ws g s) (ws g (S s)) (WM g (ws g s)) (fc s) (fc (S s)) ec (gdim g = 2)) /\
  (forall s, s < gK g -> Rsyn (ws g s) (ws g (S s)) (WM g (ws g s)) (fc s) (fc (S s)) ec (gdim g = 2)).
Proof.
  pose proof g1 as E1. unfold fr, fc, er, ec. destruct ud.
  - split; [intros; apply mir_in; auto|]. split; [intros; unfold same; auto|].
    split; [intros s Hs; apply (row_mir g GW (fun _ => E1) s Hs)|]. split; [intros s Hs; apply (row_mir g GW (fun _ => E1) s Hs)|].
    split; intros s Hs; apply (col_same g GW s Hs).
  - split; [intros; unfold same; auto|]. split; [intros; apply mir_in; auto|].
    split; [intros s Hs; apply (row_same g GW s Hs)|]. split; [intros s Hs; apply (row_same g GW s Hs)|].
    split; intros s Hs; apply (col_mir g GW (fun _ => E1) s Hs).
Qed.

Lemma decompose_mirrored (b b' : buffer R) data data' :
  reachable p b -> reachable p b' ->
  (1 <= signum p)%Z -> Z.of_nat (length data) = signum p -> Forall (shaped p) data ->
  Forall2 (mirrored ud 1) data data' ->
  exists b1 b1', decompose b data null_denoiser = Ok (true, b1) /\ decompose b' data' null_denoiser = Ok (true, b1') /\
    bpar b1 = p /\ bpar b1' = p /\ Forall (has_layout p) (bdec b1) /\ Forall (has_layout p) (bdec b1') /\
    Forall2 (mirrored_channel p ud) (bdec b1) (bdec b1').
Proof.
  intros HR HR' H1 HL HS F. destruct mir_facts as (A1 & A2 & A3 & A4 & A5 & A6).
  assert (HS' : Forall (shaped p) data').
  { clear HL. induction F as [|m m' l l' ((W & W' & R1 & C1) & _) F IH]; [constructor|]. inversion HS as [|? ? (Wm & Rm & Cm) HSl]; subst.
    constructor; auto. split; [auto|]. lia. }
  destruct (decompose_sym p HA HU fr fc er ec A1 A2 A3 A5 A6 b b' data data')
    as (b1 & b1' & Q1 & Q2 & Q3 & Q4 & Q5 & Q6 & Q7); auto.
  - apply (F2_impl' (mirrored ud 1) _ _ _ (shaped p) (shaped p)); auto.
    intros m m' (W & R1 & C1) (W' & R2 & C2) H. destruct sizes_0 as (Z1 & Z2).
    apply (mvd_mir 0); try congruence.
  - exists b1, b1'. split; [exact Q1|]. split; [exact Q2|]. split; [exact Q3|]. split; [exact Q4|]. split; [exact Q5|]. split; [exact Q6|].
    apply (F2_impl' (chan_sym g fr fc er ec) _ _ _ (has_layout p) (has_layout p)); auto. intros c c' L L' H. apply chan_mir; auto.
Qed.

Lemma compose_mirrored (b b' : buffer R) sf :
  bpar b = p -> bpar b' = p -> Z.of_nat (length (bdec b)) = signum p ->
  Forall (has_layout p) (bdec b) -> Forall (has_layout p) (bdec b') ->
  Forall2 (mirrored_channel p ud) (bdec b) (bdec b') -> (0 <= sf <= steps p)%Z ->
  exists out out', compose b sf = Ok (true, out) /\ compose b' sf = Ok (true, out') /\
    Forall2 (mirrored ud 1) out out'.
Proof.
  intros E E' HL L L' F Hsf. destruct mir_facts as (A1 & A2 & A3 & A4 & A5 & A6).
  destruct (compose_sym p HA HU fr fc er ec A1 A2 A4 A6 b b' sf)
    as (out & out' & Q1 & Q2 & Q3 & Q4 & Q5); auto.
  - apply (F2_impl' (mirrored_channel p ud) _ _ _ (has_layout p) (has_layout p)); auto. intros c c' Lc Lc' H. apply chan_mir; auto.
  - exists out, out'. split; [exact Q1|]. split; [exact Q2|].
    apply (F2_impl' (mvd g fr fc (Z.to_nat sf) 1) _ _ _ (sized (hs g (Z.to_nat sf)) (ws g (Z.to_nat sf))) (sized (hs g (Z.to_nat sf)) (ws g (Z.to_nat sf)))); auto.
    intros m m' (W & R1 & C1) (W' & R2 & C2) H. apply (mvd_mir (Z.to_nat sf)); auto.
Qed.
End Mir.
End S.
