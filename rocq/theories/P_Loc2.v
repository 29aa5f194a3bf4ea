(** * P_Loc2: the size of the window, and norms over it. *)
Require Import List Bool Arith ZArith Lia Reals Lra Psatz.
Require Import ZifyBool.
Require Import Verif.M_Base Verif.M_Buffer Verif.M_Real.
Require Import Verif.P_Base Verif.P_Wavelet Verif.P_Buffer Verif.P_Sum Verif.P_L2 Verif.P_Loc.
Import ListNotations.

(** residues of L consecutive integers *)
Definition iv (a : Z) (L n r : nat) : Prop := exists z, (a <= z < a + Z.of_nat L)%Z /\ Z.of_nat r = (z mod Z.of_nat n)%Z.
Definition inb (a : Z) (L n r : nat) : bool :=
  existsb (fun k => Nat.eqb r (Z.to_nat ((a + Z.of_nat k) mod Z.of_nat n))) (seq 0 L).
Lemma inb_iv a L n r : iv a L n r -> inb a L n r = true.
Proof.
  intros (z & Hz & E). unfold inb. apply existsb_exists. exists (Z.to_nat (z - a)). split; [apply in_seq; lia|].
  apply Nat.eqb_eq. replace (a + Z.of_nat (Z.to_nat (z - a)))%Z with z by lia. rewrite <- E. lia.
Qed.
Lemma iv_more a L L' n r : L <= L' -> iv a L n r -> iv a L' n r.
Proof. intros HL (z & Hz & E). exists z. split; [lia|auto]. Qed.

Lemma dep_Z t N c i : 0 < N -> dep t N c i -> exists k m, (0 <= k < 2 * Z.of_nat t)%Z /\ (2 * Z.of_nat c + k = Z.of_nat i + 2 * Z.of_nat N * m)%Z.
Proof.
  intros HN (k & Hk & ->). exists (Z.of_nat k), (Z.of_nat ((2 * c + k) / (2 * N))). split; [lia|].
  pose proof (Nat.div_mod (2 * c + k) (2 * N) ltac:(lia)). nia.
Qed.
Lemma mod_eq n r z m : 0 < n -> r < n -> (Z.of_nat r = z + Z.of_nat n * m)%Z -> Z.of_nat r = (z mod Z.of_nat n)%Z.
Proof.
  intros Hn Hr E. apply Z.mod_unique with (q := (- m)%Z); [left; lia|]. lia.
Qed.
Lemma mod_ex n r z : 0 < n -> Z.of_nat r = (z mod Z.of_nat n)%Z -> exists m, (Z.of_nat r = z + Z.of_nat n * m)%Z.
Proof.
  intros Hn E. exists (- (z / Z.of_nat n))%Z. pose proof (Z.div_mod z (Z.of_nat n) ltac:(lia)). lia.
Qed.
Lemma dep_up t N a c i : 0 < N -> 0 < t -> c < N -> dep t N c i -> iv a (2 * t - 1) (2 * N) i ->
  iv ((a - 2 * Z.of_nat t + 2) / 2) (2 * t - 1) N c.
Proof.
  intros HN Ht Hc HD (z & Hz & E). apply dep_Z in HD as (k & m & Hk & EQ); auto.
  apply mod_ex in E as (m' & E); [|lia].
  exists ((z - k) / 2)%Z.
  assert (EV : (z - k = 2 * (Z.of_nat c - Z.of_nat N * (m + m')))%Z) by nia.
  assert (E2 : ((z - k) / 2 = Z.of_nat c - Z.of_nat N * (m + m'))%Z) by (rewrite EV, Z.mul_comm, Z.div_mul; lia).
  rewrite E2. split.
  - Z.to_euclidean_division_equations; lia.
  - apply mod_eq with (m := (m + m')%Z); auto. lia.
Qed.
Lemma dep_down t N b l c r : 0 < N -> 0 < t -> 0 < l -> dep t N c r -> iv b l N c -> iv (2 * b) (2 * l + 2 * t - 2) (2 * N) r.
Proof.
  intros HN Ht Hl (k & Hk & ->) (z & Hz & E). apply mod_ex in E as (m & E); [|lia].
  exists (2 * z + Z.of_nat k)%Z. split; [lia|].
  set (r := (2 * c + k) mod (2 * N)). pose proof (Nat.div_mod (2 * c + k) (2 * N) ltac:(lia)) as D. fold r in D.
  apply mod_eq with (m := (m - Z.of_nat ((2 * c + k) / (2 * N)))%Z); [lia|apply Nat.mod_upper_bound; lia|]. nia.
Qed.

Definition wlen (t d : nat) : nat := 2 ^ d * (4 * t - 3) - (2 * t - 2).
Lemma wlen_step t d : 0 < t -> wlen t (S d) = 2 * wlen t d + 2 * t - 2.
Proof.
  intros Ht. unfold wlen. rewrite Nat.pow_succ_r'. pose proof (Nat.pow_nonzero 2 d ltac:(lia)).
  assert (2 * t - 2 < 2 ^ d * (4 * t - 3)) by nia. lia.
Qed.
Lemma wlen_pos t d : 0 < t -> 2 * t - 1 <= wlen t d.
Proof.
  intros Ht. unfold wlen. pose proof (Nat.pow_nonzero 2 d ltac:(lia)). assert (4 * t - 3 <= 2 ^ d * (4 * t - 3)) by nia. lia.
Qed.

Fixpoint ua (t i0 s : nat) : Z :=
  match s with O => Z.of_nat i0 | S s' => ((ua t i0 s' - 2 * Z.of_nat t + 2) / 2)%Z end.
Section Chain.
Variables (D : nat -> nat -> nat -> Prop) (n : nat -> nat) (t K i0 : nat).
Hypothesis HD : forall s c i, s < K -> D s c i -> dep t (n (S s)) c i.
Hypothesis Hn : forall s, s < K -> n s = 2 * n (S s) /\ 0 < n (S s).
Hypothesis Ht : 0 < t.
Hypothesis H0 : i0 < n 0.

Lemma up_iv s : s <= K -> forall c, up D n i0 s c -> iv (ua t i0 s) (2 * t - 1) (n s) c.
Proof.
  induction s as [|s IH]; intros Hs.
  - intros c ->. exists (Z.of_nat i0). cbn [ua]. split; [lia|]. rewrite Z.mod_small; lia.
  - intros c (Hc & r & Hr & Dr). apply IH in Hr; [|lia]. cbn [ua].
    destruct (Hn s ltac:(lia)) as [E P]. apply (dep_up t (n (S s)) _ c r); auto. rewrite <- E. auto.
Qed.
Lemma down_iv d : d <= K -> exists a, forall c, down D n i0 K d c -> iv a (wlen t d) (n (K - d)) c.
Proof.
  induction d as [|d IH]; intros Hd.
  - exists (ua t i0 K). intros c Hc. rewrite Nat.sub_0_r. apply up_iv in Hc; [|lia].
    eapply iv_more; [|exact Hc]. apply wlen_pos; auto.
  - destruct (IH ltac:(lia)) as (a & Ha). exists (2 * a)%Z. intros r (c & Hc & Dr). apply Ha in Hc.
    destruct (Hn (K - S d) ltac:(lia)) as [E P]. rewrite E. rewrite wlen_step by auto.
    apply (dep_down t _ a (wlen t d) c); auto.
    + pose proof (wlen_pos t d Ht). lia.
    + apply HD; auto. lia.
    + replace (S (K - S d)) with (K - d) by lia. auto.
Qed.
End Chain.

Section Window.
Variable g : geom.
Hypothesis G : gwf g.
Notation t := (Z.to_nat (gt g)).
Notation K := (gK g).
Definition rwin : nat := wlen t K.
Definition cwin : nat := if gdim g =? 1 then 1 else wlen t K.
Lemma wlen_0 t' : wlen t' 0 = 2 * t' - 1 \/ t' = 0 /\ wlen t' 0 = 0.
Proof. unfold wlen. rewrite Nat.pow_0_r. lia. Qed.

Lemma row_window i0 : i0 < hs g 0 -> 0 < K -> exists a, forall i, down (rdep g) (hs g) i0 K K i -> iv a rwin (hs g 0) i.
Proof.
  intros Hi HK. pose proof (gt_range g 0 G HK). destruct (down_iv (rdep g) (hs g) t K i0) with (d := K) as (a & Ha); auto; try lia.
  - intros s Hs. pose proof (hs_step g s G Hs). lia.
  - exists a. intros i H1. apply Ha in H1. rewrite Nat.sub_diag in H1. exact H1.
Qed.
Lemma col_window j0 : j0 < ws g 0 -> 0 < K -> exists a, forall j, j < ws g 0 -> down (cdep g) (ws g) j0 K K j -> iv a cwin (ws g 0) j.
Proof.
  intros Hj HK. pose proof (gt_range g 0 G HK). unfold cwin. destruct (gdim_cases g G) as [E|E]; rewrite E; cbn [Nat.eqb].
  - exists 0%Z. intros j Hj' _. exists 0%Z. split; [lia|]. rewrite (ws_1 g 0 E) in *. rewrite Z.mod_small; lia.
  - destruct (down_iv (cdep g) (ws g) t K j0) with (d := K) as (a & Ha); auto; try lia.
    + intros s c i Hs [D|D]; auto. congruence.
    + intros s Hs. pose proof (ws_step g s G E Hs). lia.
    + exists a. intros j _ H1. apply Ha in H1. rewrite Nat.sub_diag in H1. exact H1.
Qed.
(** how far the coefficients of level s lie *)
Definition cup : nat := if gdim g =? 1 then 1 else 2 * t - 1.
Definition cua (j0 s : nat) : Z := if gdim g =? 1 then 0%Z else ua t j0 s.
Lemma row_up i0 s : i0 < hs g 0 -> 0 < K -> s <= K -> forall i, up (rdep g) (hs g) i0 s i -> iv (ua t i0 s) (2 * t - 1) (hs g s) i.
Proof.
  intros Hi HK Hs. pose proof (gt_range g 0 G HK). apply (up_iv (rdep g) (hs g) t K i0); auto; try lia.
  intros s' Hs'. pose proof (hs_step g s' G Hs'). lia.
Qed.
Lemma col_up j0 s : j0 < ws g 0 -> 0 < K -> s <= K -> forall j, j < ws g s -> up (cdep g) (ws g) j0 s j -> iv (cua j0 s) cup (ws g s) j.
Proof.
  intros Hj HK Hs j Hj'. pose proof (gt_range g 0 G HK). unfold cup, cua. destruct (gdim_cases g G) as [E|E]; rewrite E; cbn [Nat.eqb].
  - intros _. exists 0%Z. split; [lia|]. rewrite (ws_1 g s E) in *. rewrite Z.mod_small; lia.
  - intros H1. apply (up_iv (cdep g) (ws g) t K j0); auto; try lia.
    + intros s' c i Hs' [D|D]; auto. congruence.
    + intros s' Hs'. pose proof (ws_step g s' G E Hs'). lia.
Qed.
End Window.

(** ** norms over a window *)
Open Scope R_scope.
Lemma count_window a L n v : 0 <= v -> rsum n (fun r => if inb a L n r then v else 0) <= INR L * v.
Proof.
  intros Hv. unfold inb. induction L as [|L IH].
  - rewrite rsum_zero; [simpl; lra|]. intros; reflexivity.
  - set (f := fun k => Z.to_nat ((a + Z.of_nat k) mod Z.of_nat n)%Z) in *.
    change (rsum n (fun r => if existsb (fun k => Nat.eqb r (f k)) (seq 0 L) then v else 0) <= INR L * v) in IH.
    change (rsum n (fun r => if existsb (fun k => Nat.eqb r (f k)) (seq 0 (S L)) then v else 0) <= INR (S L) * v).
    apply Rle_trans with (rsum n (fun r => if existsb (fun k => Nat.eqb r (f k)) (seq 0 L) then v else 0) + rsum n (fun r => if Nat.eqb r (f L) then v else 0)).
    + rewrite <- rsum_plus. apply rsum_le. intros r Hr. rewrite seq_S, existsb_app. cbn [existsb]. rewrite Nat.add_0_l, orb_false_r.
      destruct (existsb (fun k => Nat.eqb r (f k)) (seq 0 L)), (Nat.eqb r (f L)); cbn [orb]; lra.
    + rewrite S_INR. assert (rsum n (fun r => if Nat.eqb r (f L) then v else 0) <= v); [|lra].
      generalize (f L). intros q. clear -Hv. 
      assert (forall m, rsum m (fun r => if Nat.eqb r q then v else 0) = if Nat.ltb q m then v else 0).
      { induction m as [|m IH]; [reflexivity|]. cbn [rsum]. rewrite IH.
        destruct (Nat.ltb_spec q m), (Nat.ltb_spec q (S m)), (Nat.eqb_spec m q); try lia; lra. }
      rewrite H. destruct (Nat.ltb q n); lra.
Qed.
(** x on the window, 0 elsewhere *)
Definition clip a L n b M m (x : nat -> nat -> R) (i j : nat) : R := if inb a L n i && inb b M m j then x i j else 0.
Lemma nrm_clip a L n b M m x B : 0 <= B -> (forall i j, (i < n)%nat -> (j < m)%nat -> Rabs (x i j) <= B) ->
  nrm n m (clip a L n b M m x) <= sqrt (INR (L * M)) * B.
Proof.
  intros HB H. unfold nrm. rewrite <- (sqrt_square B) at 1 by auto. rewrite <- sqrt_mult; [|apply pos_INR|nra].
  apply sqrt_le_1_alt. unfold rsum2. rewrite mult_INR.
  apply Rle_trans with (rsum n (fun i => if inb a L n i then INR M * (B * B) else 0)).
  - apply rsum_le. intros i Hi. unfold clip. destruct (inb a L n i); cbn [andb].
    + eapply Rle_trans; [|apply (count_window b M m (B * B)); nra]. apply rsum_le. intros j Hj.
      destruct (inb b M m j); [|unfold sq; lra]. specialize (H i j Hi Hj).
      unfold sq. rewrite <- (Rabs_pos_eq (x i j * x i j)) by nra. rewrite Rabs_mult. pose proof (Rabs_pos (x i j)). nra.
    + rewrite rsum_zero; [lra|]. intros; unfold sq; lra.
  - eapply Rle_trans; [apply count_window; pose proof (pos_INR M); nra|]. lra.
Qed.
