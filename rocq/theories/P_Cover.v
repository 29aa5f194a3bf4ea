(** * P_Cover: a coefficient is made of the samples it spans, a sample of the
    coefficients that span it. *)
Require Import List Bool Arith ZArith Lia Psatz.
Require Import ZifyBool.
Require Import Verif.M_Base Verif.M_Params Verif.M_Padding Verif.M_Wavelet Verif.M_Buffer Verif.M_Denoise.
Require Import Verif.S_Params Verif.S_Padding Verif.S_Buffer Verif.S_Local Verif.S_Preview Verif.S_Cover.
Require Import Verif.P_Base Verif.P_Wavelet Verif.P_Buffer Verif.P_Impl Verif.P_Api Verif.P_Api2.
Require Import Verif.P_Rec Verif.P_Exact Verif.P_Round2 Verif.P_Round3.
Require Import Verif.P_Loc Verif.P_Loc2 Verif.P_Loc3 Verif.P_Loc4 Verif.P_Denoise.
Import ListNotations.
Open Scope nat_scope.

(** ** spans on a circle *)
Definition sup (t d : nat) : nat := 1 + (2 ^ d - 1) * (2 * t - 1).
Definition cov (t d n c r : nat) : Prop := exists z, 2 ^ d * c <= z < 2 ^ d * c + sup t d /\ r = z mod n.

Lemma sup_1 t d : 0 < t -> sup t (S d) = 2 ^ d * (2 * t - 1) + sup t d.
Proof. intros Ht. unfold sup. rewrite Nat.pow_succ_r'. pose proof (Nat.pow_nonzero 2 d ltac:(lia)). nia. Qed.
Lemma sup_2 t d : 0 < t -> sup t (S d) = 2 * sup t d + (2 * t - 2).
Proof. intros Ht. unfold sup. rewrite Nat.pow_succ_r'. pose proof (Nat.pow_nonzero 2 d ltac:(lia)). nia. Qed.
Lemma cov_0 t n c : c < n -> cov t 0 n c c.
Proof. intros H. exists c. unfold sup. cbn [Nat.pow]. rewrite Nat.sub_diag, Nat.mul_0_l. split; [lia|]. rewrite Nat.mod_small; auto. Qed.
Lemma cov_one t d c r : r < 1 -> cov t d 1 c r.
Proof. intros H. exists (2 ^ d * c). split; [split; [lia|apply Nat.lt_add_pos_r, Nat.lt_0_succ]|]. rewrite Nat.mod_1_r. lia. Qed.

Lemma cov_down t s N c i r : 0 < t -> 0 < N -> dep t N c i -> cov t s (2 ^ s * (2 * N)) i r -> cov t (S s) (2 ^ s * (2 * N)) c r.
Proof.
  intros Ht HN (k & Hk & Ei) (z & Hz & ->). pose proof (Nat.pow_nonzero 2 s ltac:(lia)) as P0.
  exists (z + (2 * c + k) / (2 * N) * (2 ^ s * (2 * N))). split.
  - pose proof (Nat.div_mod (2 * c + k) (2 * N) ltac:(lia)) as D. rewrite <- Ei in D.
    set (m := (2 * c + k) / (2 * N)) in *.
    assert (E : 2 ^ s * i + m * (2 ^ s * (2 * N)) = 2 ^ s * (2 * c + k)) by (rewrite D; ring).
    rewrite (sup_1 t s Ht), Nat.pow_succ_r'. nia.
  - rewrite Nat.mod_add; [reflexivity|nia].
Qed.
Lemma cov_up t d N e c i : 0 < t -> 0 < N -> cov t d N c e -> dep t N e i -> cov t (S d) (2 * N) c i.
Proof.
  intros Ht HN (z & Hz & ->) (k & Hk & ->). exists (2 * z + k). split.
  - rewrite (sup_2 t d Ht), Nat.pow_succ_r'. nia.
  - rewrite <- (Nat.add_mod_idemp_l (2 * z) k) by lia. rewrite Nat.mul_mod_distr_l by lia. reflexivity.
Qed.

Section Any.
Context {T : Type} {AT : Arith T}.
Section Geom.
Variable g : geom.
Hypothesis G : gwf g.
Notation t := (Z.to_nat (gt g)).
Notation K := (gK g).

Lemma hs_pow s d : s + d <= K -> hs g s = 2 ^ d * hs g (s + d).
Proof.
  revert s. induction d as [|d IH]; intros s H; [rewrite Nat.add_0_r; cbn [Nat.pow]; lia|].
  pose proof (hs_step g s G ltac:(lia)) as (E & _). rewrite E, (IH (S s)) by lia.
  replace (S s + d) with (s + S d) by lia. rewrite Nat.pow_succ_r'. lia.
Qed.
Lemma ws_pow s d : gdim g = 2 -> s + d <= K -> ws g s = 2 ^ d * ws g (s + d).
Proof.
  intros D. revert s. induction d as [|d IH]; intros s H; [rewrite Nat.add_0_r; cbn [Nat.pow]; lia|].
  pose proof (ws_step g s G D ltac:(lia)) as (E & _). rewrite E, (IH (S s)) by lia.
  replace (S s + d) with (s + S d) by lia. rewrite Nat.pow_succ_r'. lia.
Qed.

Lemma r_down s c i r : s < K -> rdep g s c i -> cov t s (hs g 0) i r -> cov t (S s) (hs g 0) c r.
Proof.
  intros Hs H C. pose proof (hs_step g s G Hs) as (E & E2). pose proof (gt_range g s G Hs).
  rewrite (hs_pow 0 s ltac:(lia)), Nat.add_0_l, E in *. eapply cov_down; eauto; lia.
Qed.
Lemma c_down s c j r : s < K -> r < ws g 0 -> cdep g s c j -> cov t s (ws g 0) j r -> cov t (S s) (ws g 0) c r.
Proof.
  intros Hs Hr H C. pose proof (gt_range g s G Hs). destruct (gdim_cases g G) as [D|D].
  - rewrite (ws_1 g _ D) in *. apply cov_one; auto.
  - pose proof (ws_step g s G D Hs) as (E & E2). destruct H as [H|H]; [lia|].
    rewrite (ws_pow 0 s D ltac:(lia)), Nat.add_0_l, E in *. eapply cov_down; eauto; lia.
Qed.
Lemma r_up s d c e i : s < K -> cov t d (hs g (S s)) c e -> rdep g s e i -> cov t (S d) (hs g s) c i.
Proof.
  intros Hs C H. pose proof (hs_step g s G Hs) as (E & E2). pose proof (gt_range g s G Hs).
  rewrite E. eapply cov_up; eauto; lia.
Qed.
Lemma c_up s d c e j : s < K -> j < ws g s -> cov t d (ws g (S s)) c e -> cdep g s e j -> cov t (S d) (ws g s) c j.
Proof.
  intros Hs Hj C H. pose proof (gt_range g s G Hs). destruct (gdim_cases g G) as [D|D].
  - rewrite (ws_1 g _ D) in *. apply cov_one; auto.
  - pose proof (ws_step g s G D Hs) as (E & E2). destruct H as [H|H]; [lia|]. rewrite E. eapply cov_up; eauto; lia.
Qed.

(** ** analysis *)
Section Two.
Variables x x' : nat -> nat -> T.
Definition same_on (s i j : nat) : Prop := forall r q, r < hs g 0 -> q < ws g 0 ->
  cov t s (hs g 0) i r -> cov t s (ws g 0) j q -> x r q = x' r q.

Lemma ANA_cov s i j : s < K -> i < hs g s -> j < ws g s ->
  (forall i' j', i' < hs g s -> j' < ws g s -> same_on s i' j' -> ap g x s i' j' = ap g x' s i' j') ->
  same_on (S s) (rpos g s i) (cpos g s j) -> ANA g s (ap g x s) i j = ANA g s (ap g x' s) i j.
Proof.
  intros Hs Hi Hj IH H. apply ANA_loc; auto. intros i' j' Hi' Hj' Ri Rj. apply IH; auto.
  intros r q Hr Hq Cr Cq. apply H; auto; [eapply r_down; eauto|eapply c_down; eauto].
Qed.
Lemma ap_cov s : s <= K -> forall i j, i < hs g s -> j < ws g s -> same_on s i j -> ap g x s i j = ap g x' s i j.
Proof.
  induction s as [|s IH]; intros Hs i j Hi Hj H.
  - cbn [ap]. apply H; auto; apply cov_0; auto.
  - assert (Hs' : s < K) by lia. pose proof (hs_step g s G Hs') as (Hh & _).
    assert (Hjs : j < ws g s).
    { destruct (gdim_cases g G) as [E|E]; [rewrite !(ws_1 g _ E) in *; auto|]. pose proof (ws_step g s G E Hs') as (Hw & _). lia. }
    assert (Ei : rpos g s i = i) by (unfold rpos, pos; destruct (Nat.ltb_spec i (hs g (S s))); lia).
    assert (Ej : cpos g s j = j) by (unfold cpos, pos; destruct (Nat.ltb_spec j (ws g (S s))); lia).
    rewrite !(ana_low g) by auto. apply ANA_cov; auto; [lia| |rewrite Ei, Ej; auto].
    intros; apply IH; auto; lia.
Qed.
End Two.

(** ** synthesis *)
Section Bands.
Variables ch ch' : decomposition T.
Lemma rc_cov it : it <= K -> forall i j, i < hs g (K - it) -> j < ws g (K - it) ->
  (forall s b r q, K - it <= s < K -> b < gspw g -> r < hs g (S s) -> q < ws g (S s) ->
     cov t (S s - (K - it)) (hs g (K - it)) r i -> cov t (S s - (K - it)) (ws g (K - it)) q j ->
     chf ch (s * gspw g + b) r q = chf ch' (s * gspw g + b) r q) ->
  (forall r q, r < hs g K -> q < ws g K -> cov t it (hs g (K - it)) r i -> cov t it (ws g (K - it)) q j ->
     chf ch (K * gspw g) r q = chf ch' (K * gspw g) r q) ->
  rc g ch it i j = rc g ch' it i j.
Proof.
  induction it as [|it IH]; intros Hit i j Hi Hj HD HA.
  - rewrite Nat.sub_0_r in *. cbn [rc]. apply HA; auto; apply cov_0; auto.
  - cbn [rc]. set (s := K - S it) in *. assert (Hs : s < K) by (unfold s; lia).
    assert (ES : K - it = S s) by (unfold s; lia). rewrite ES in IH.
    rewrite !syn_join by auto. apply SYN_loc; auto. intros e f He Hf Re Rf.
    pose proof (rpos_lt g G s e Hs He) as Le. pose proof (cpos_lt g G s f Hs Hf) as Lf.
    assert (DD : forall b, b < gspw g -> chf ch (s * gspw g + b) (rpos g s e) (cpos g s f) = chf ch' (s * gspw g + b) (rpos g s e) (cpos g s f)).
    { intros b Hb. apply HD; auto; try lia; replace (S s - s) with 1 by lia;
        [eapply r_up; eauto|eapply c_up; eauto]; apply cov_0; auto. }
    unfold joined. unfold rpos, pos in Re, Le, DD. unfold cpos, pos in Rf, Lf, DD.
    destruct (Nat.ltb_spec e (hs g (S s))), (Nat.ltb_spec f (ws g (S s))).
    + apply IH; auto; try lia.
      * intros s' b r q Hs' Hb Hr Hq Cr Cq. apply HD; auto; try lia; replace (S s' - s) with (S (S s' - S s)) by lia;
          [eapply r_up; eauto|eapply c_up; eauto].
      * intros r q Hr Hq Cr Cq. apply HA; auto; [eapply r_up; eauto|eapply c_up; eauto].
    + destruct (gdim_cases g G) as [E|E]; [rewrite !(ws_1 g _ E) in *; lia|]. apply DD. rewrite spw_2; auto.
    + apply DD. apply spw_pos.
    + destruct (gdim_cases g G) as [E|E]; [rewrite !(ws_1 g _ E) in *; lia|]. apply DD. rewrite spw_2; auto.
Qed.
End Bands.
End Geom.
End Any.
