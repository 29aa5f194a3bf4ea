(** * P_Daub: the printed coefficients are close to an exact Daubechies filter *)
Require Import List Bool Arith ZArith QArith Qreals Reals Lra Lia.
Require Import Verif.M_Base Verif.M_Wavelet Verif.M_Buffer Verif.M_Real Verif.S_Exact Verif.S_Daub.
Require Import Verif.P_Wavelet Verif.P_Sum Verif.P_PR Verif.P_Exact Verif.P_Kant Verif.P_DaubC.
Import ListNotations.
Open Scope R_scope.

Fixpoint zsum (n : nat) (f : nat -> Z) : Z := match n with O => 0%Z | S n => (zsum n f + f n)%Z end.
Lemma zsum_rsum n f : IZR (zsum n f) = rsum n (fun k => IZR (f k)).
Proof. induction n; cbn [zsum rsum]; [reflexivity|]. rewrite plus_IZR, IHn. reflexivity. Qed.

(** ** the equations, over the integers *)
Definition SC : Z := (10 ^ 19)%Z.
Definition Xl (t : Z) : list Z := map (fun q => (Qnum q * SC / Zpos (Qden q))%Z) (dbtable t).
Definition ent (M : list (list Z)) (i k : nat) : Z := nth k (nth i M []) 0%Z.
Definition alt (k : nat) : Z := if Nat.even k then 1%Z else (-1)%Z.
Definition jac (N : nat) (X : list Z) (m k : nat) : Z :=
  if Nat.ltb m N then
    ((if Nat.ltb k (2 * N - 2 * m) then nth (k + 2 * m) X 0 else 0) + (if Nat.leb (2 * m) k then nth (k - 2 * m) X 0 else 0))%Z
  else (alt k * Z.of_nat k ^ Z.of_nat (m - N) * SC)%Z.
Definition defect (N : nat) (X : list Z) (m : nat) : Z :=
  if Nat.ltb m N then
    (2 * zsum (2 * N - 2 * m) (fun k => nth k X 0 * nth (k + 2 * m) X 0) - (if Nat.eqb m 0 then SC * SC else 0))%Z
  else (2 * SC * zsum (2 * N) (fun k => alt k * Z.of_nat k ^ Z.of_nat (m - N) * nth k X 0))%Z.
Definition table (n : nat) (f : nat -> nat -> Z) : list (list Z) := map (fun i => map (f i) (seq 0 n)) (seq 0 n).
Definition zunit (i k : nat) : Z := if Nat.eqb i k then 1%Z else 0%Z.

Lemma ent_table n f i k : (i < n)%nat -> (k < n)%nat -> ent (table n f) i k = f i k.
Proof.
  intros Hi Hk. unfold ent, table.
  rewrite (nth_indep _ [] (map (f 0%nat) (seq 0 n))) by (rewrite map_length, seq_length; exact Hi).
  rewrite (map_nth (fun i => map (f i) (seq 0 n))), seq_nth by exact Hi.
  rewrite (nth_indep _ 0%Z (f (0 + i)%nat 0%nat)) by (rewrite map_length, seq_length; exact Hk).
  rewrite map_nth, seq_nth by exact Hk. reflexivity.
Qed.

Definition errz (t : Z) : Z :=
  match t with 2 => 23920000 | 3 => 254300000 | 4 => 30230000 | 5 => 56200000 | 6 => 11550 | 7 => 38380000
             | 8 => 62240000 | 9 => 1774000000 | 10 => 71990000 | _ => 0 end%Z.
Definition radz (t : Z) : Z :=
  match t with 2 => 24570000 | 3 => 261200000 | 4 => 31050000 | 5 => 57720000 | 6 => 11870 | 7 => 39420000
             | 8 => 63930000 | 9 => 1822000000 | 10 => 73940000 | _ => 0 end%Z.

Definition check_t (t : Z) : bool :=
  let N := Z.to_nat t in let n := (2 * N)%nat in
  let X := Xl t in let C := hint t in let K := (2 ^ hint_bits t)%Z in
  let J := table n (jac N X) in let F := map (defect N X) (seq 0 n) in
  let rows := seq 0 n in
  forallb (fun q => ((Qnum q * SC) mod Zpos (Qden q) =? 0)%Z) (dbtable t) &&
  (length (dbtable t) =? n)%nat &&
  forallb (fun i => (40 * zsum n (fun k => Z.abs (K * SC * zunit i k - zsum n (fun m => ent C i m * ent J m k))) <=? K * SC)%Z) rows &&
  forallb (fun i => (2 * zsum n (fun k => Z.abs (K * SC * zunit i k - zsum n (fun m => ent J i m * ent C m k))) <=? K * SC)%Z) rows &&
  forallb (fun i => (Z.abs (zsum n (fun m => ent C i m * nth m F 0)) * 10 ^ 20 <=? errz t * (K * (2 * SC * SC)))%Z) rows &&
  forallb (fun i => (zsum n (fun m => Z.abs (ent C i m)) <=? 4096 * K)%Z) rows &&
  (errz t * 10 ^ 20 * 40 + radz t * 10 ^ 20 + 40 * 4096 * Z.of_nat n * radz t * radz t <=? 40 * radz t * 10 ^ 20)%Z &&
  (40 * 4096 * 2 * Z.of_nat n * radz t <=? 19 * 10 ^ 20)%Z && (0 <=? radz t)%Z && (0 <? K)%Z &&
  (0 <? zsum n (fun k => nth k X 0) * 10 ^ 20 - Z.of_nat n * radz t * SC)%Z.
Lemma checked : forallb check_t [1; 2; 3; 4; 5; 6; 7; 8; 9; 10]%Z = true.
Proof. vm_compute. reflexivity. Qed.
Lemma checked_t t : (1 <= t <= 10)%Z -> check_t t = true.
Proof.
  intro H. pose proof (proj1 (forallb_forall _ _) checked) as C. apply C.
  assert (D : (t = 1 \/ t = 2 \/ t = 3 \/ t = 4 \/ t = 5 \/ t = 6 \/ t = 7 \/ t = 8 \/ t = 9 \/ t = 10)%Z) by lia.
  cbn [In]. intuition lia.
Qed.

(** ** the equations, over the reals *)
Section Daub.
Variable t : Z.
Hypothesis Ht : (1 <= t <= 10)%Z.
Let N := Z.to_nat t.
Let n := (2 * N)%nat.
Let X := Xl t.
Let K := (2 ^ hint_bits t)%Z.
Let s := IZR SC.
Let rK := IZR K.
Definition x0 (k : nat) : R := IZR (nth k (Xl t) 0%Z) / IZR SC.
Definition Cr (i m : nat) : R := IZR (ent (hint t) i m) / IZR (2 ^ hint_bits t).
Definition Jr (m k : nat) : R := IZR (jac (Z.to_nat t) (Xl t) m k) / IZR SC.
Definition Fr0 (m : nat) : R := IZR (defect (Z.to_nat t) (Xl t) m) / (2 * IZR SC * IZR SC).
Definition Br (m : nat) (d : nat -> R) : R :=
  if Nat.ltb m (Z.to_nat t) then rsum (2 * Z.to_nat t - 2 * m) (fun k => d k * d (k + 2 * m)%nat) else 0.
(** the system *)
Definition eqn (x : nat -> R) (m : nat) : R :=
  if Nat.ltb m (Z.to_nat t) then
    rsum (2 * Z.to_nat t - 2 * m) (fun k => x k * x (k + 2 * m)%nat) - (if Nat.eqb m 0 then 1 / 2 else 0)
  else rsum (2 * Z.to_nat t) (fun k => (-1) ^ k * INR k ^ (m - Z.to_nat t) * x k).

Lemma s_pos : 0 < s. Proof. unfold s, SC. apply IZR_lt. lia. Qed.

Lemma alt_pow k : IZR (alt k) = (-1) ^ k.
Proof.
  unfold alt. destruct (Nat.even k) eqn:E.
  - apply Nat.even_spec in E. destruct E as (q & ->). rewrite pow_1_even. reflexivity.
  - assert (O : Nat.odd k = true) by (rewrite <- Nat.negb_even, E; reflexivity).
    apply Nat.odd_spec in O. destruct O as (q & ->). rewrite Nat.add_1_r, pow_1_odd. reflexivity.
Qed.
Lemma INR_powz k j : IZR (Z.of_nat k ^ Z.of_nat j) = INR k ^ j.
Proof. rewrite <- pow_IZR, <- INR_IZR_INZ. reflexivity. Qed.

Lemma rsum_add a b f : rsum (a + b) f = rsum a f + rsum b (fun k => f (a + k)%nat).
Proof. induction b; [rewrite Nat.add_0_r; cbn [rsum]; ring|]. rewrite Nat.add_succ_r. cbn [rsum]. rewrite IHb. ring. Qed.
Lemma rsum_late a q (f g : nat -> R) : (q <= a)%nat ->
  rsum (a - q) (fun k => f k * g (k + q)%nat) = rsum a (fun k => (if Nat.leb q k then f (k - q)%nat else 0) * g k).
Proof.
  intro H. replace a with (q + (a - q))%nat at 2 by lia. rewrite rsum_add.
  rewrite (rsum_zero q). 2:{ intros k Hk. destruct (Nat.leb_spec q k); [lia|ring]. }
  rewrite Rplus_0_l. apply rsum_ext. intros k _. destruct (Nat.leb_spec q (q + k)); [|lia].
  replace (q + k - q)%nat with k by lia. replace (q + k)%nat with (k + q)%nat by lia. reflexivity.
Qed.
Lemma rsum_early a q (f g : nat -> R) : (q <= a)%nat ->
  rsum (a - q) (fun k => f k * g (k + q)%nat) = rsum a (fun k => (if Nat.ltb k (a - q) then g (k + q)%nat else 0) * f k).
Proof.
  intro H. replace a with ((a - q) + q)%nat at 2 by lia. rewrite rsum_add.
  rewrite (rsum_zero q). 2:{ intros k Hk. destruct (Nat.ltb_spec (a - q + k) (a - q)); [lia|ring]. }
  rewrite Rplus_0_r. apply rsum_ext. intros k Hk. destruct (Nat.ltb_spec k (a - q)); [ring|lia].
Qed.

Lemma x0_div k : IZR (nth k X 0%Z) = s * x0 k.
Proof. unfold x0. fold X. fold s. pose proof s_pos. field. lra. Qed.

Lemma Fr0_eqn m : Fr0 m = eqn x0 m.
Proof.
  pose proof s_pos as S0. unfold Fr0, eqn, defect. fold N. fold X. fold s.
  destruct (Nat.ltb m N).
  - rewrite minus_IZR, mult_IZR, zsum_rsum.
    rewrite (rsum_ext _ _ (fun k => s * s * (x0 k * x0 (k + 2 * m)%nat))).
    2:{ intros k _. rewrite mult_IZR, !x0_div. ring. }
    rewrite rsum_scal. destruct (Nat.eqb m 0); [rewrite mult_IZR; fold s|]; field; lra.
  - rewrite !mult_IZR, zsum_rsum. fold s.
    rewrite (rsum_ext _ _ (fun k => s * ((-1) ^ k * INR k ^ (m - N) * x0 k))).
    2:{ intros k _. rewrite !mult_IZR, alt_pow, INR_powz, x0_div. ring. }
    rewrite rsum_scal. fold n. field. lra.
Qed.

Lemma val_eqn d m : val n Jr Fr0 Br d m = eqn (fun k => x0 k + d k) m.
Proof.
  pose proof s_pos as S0. unfold val. rewrite Fr0_eqn. unfold eqn, Br. fold N. destruct (Nat.ltb_spec m N) as [H|H].
  - assert (E : rsum n (fun k => Jr m k * d k) =
      rsum (2 * N - 2 * m) (fun k => d k * x0 (k + 2 * m)%nat) + rsum (2 * N - 2 * m) (fun k => x0 k * d (k + 2 * m)%nat)).
    { rewrite (rsum_early (2 * N) (2 * m) d x0), (rsum_late (2 * N) (2 * m) x0 d) by lia. fold n. rewrite <- rsum_plus.
      apply rsum_ext. intros k _. unfold Jr, jac. fold N. fold X. fold n. rewrite (proj2 (Nat.ltb_lt m N) H).
      rewrite plus_IZR. fold s.
      destruct (Nat.ltb k (n - 2 * m)), (Nat.leb (2 * m) k); rewrite ?x0_div; field; lra. }
    rewrite E.
    rewrite (rsum_ext (2 * N - 2 * m) (fun k => (x0 k + d k) * (x0 (k + 2 * m)%nat + d (k + 2 * m)%nat))
      (fun k => x0 k * x0 (k + 2 * m)%nat + (d k * x0 (k + 2 * m)%nat + x0 k * d (k + 2 * m)%nat) + d k * d (k + 2 * m)%nat)) by (intros; ring).
    rewrite !rsum_plus. ring.
  - rewrite Rplus_0_r. fold n. rewrite <- rsum_plus. apply rsum_ext. intros k _. unfold Jr, jac. fold N.
    rewrite (proj2 (Nat.ltb_ge m N) H). rewrite !mult_IZR, alt_pow, INR_powz. fold s. field. lra.
Qed.

Definition rad : R := IZR (radz t) / 10 ^ 20.

Lemma B_bound m d : box n rad d -> 0 <= rad -> Rabs (Br m d) <= INR n * rad * rad.
Proof.
  intros Hd Pr. unfold Br. fold N. assert (PN : 0 <= INR n) by apply pos_INR.
  destruct (Nat.ltb_spec m N) as [H|H].
  - eapply Rle_trans; [apply rsum_abs|]. eapply Rle_trans with (rsum (2 * N - 2 * m) (fun _ => rad * rad)).
    + apply rsum_le. intros k Hk. rewrite Rabs_mult. apply Rmult_le_compat; try apply Rabs_pos; apply Hd; unfold n; lia.
    + rewrite rsum_const, Rmult_assoc. apply Rmult_le_compat_r; [nra|]. apply le_INR. unfold n. lia.
  - rewrite Rabs_R0. nra.
Qed.
Lemma B_bound2 m d e q : box n rad d -> box n rad e -> box n q (fun i => d i - e i) -> 0 <= rad -> 0 <= q ->
  Rabs (Br m d - Br m e) <= 2 * INR n * rad * q.
Proof.
  intros Hd He Hq Pr Pq. unfold Br. fold N. assert (PN : 0 <= INR n) by apply pos_INR.
  destruct (Nat.ltb_spec m N) as [H|H].
  - rewrite <- rsum_minus. eapply Rle_trans; [apply rsum_abs|]. eapply Rle_trans with (rsum (2 * N - 2 * m) (fun _ => 2 * rad * q)).
    + apply rsum_le. intros k Hk.
      replace (d k * d (k + 2 * m)%nat - e k * e (k + 2 * m)%nat)
        with (d k * (d (k + 2 * m)%nat - e (k + 2 * m)%nat) + (d k - e k) * e (k + 2 * m)%nat) by ring.
      eapply Rle_trans; [apply Rabs_triang|]. rewrite !Rabs_mult.
      assert (A1 : Rabs (d k) <= rad) by (apply Hd; unfold n; lia).
      assert (A2 : Rabs (e (k + 2 * m)%nat) <= rad) by (apply He; unfold n; lia).
      assert (A3 : Rabs (d k - e k) <= q) by (apply (Hq k); unfold n; lia).
      assert (A4 : Rabs (d (k + 2 * m)%nat - e (k + 2 * m)%nat) <= q) by (apply (Hq (k + 2 * m)%nat); unfold n; lia).
      pose proof (Rmult_le_compat _ _ _ _ (Rabs_pos _) (Rabs_pos _) A1 A4).
      pose proof (Rmult_le_compat _ _ _ _ (Rabs_pos _) (Rabs_pos _) A3 A2). lra.
    + rewrite rsum_const. replace (2 * INR n * rad * q) with (INR n * (2 * rad * q)) by ring.
      apply Rmult_le_compat_r; [nra|]. apply le_INR. unfold n. lia.
  - rewrite Rminus_0_r, Rabs_R0. apply Rmult_le_pos; [|exact Pq]. nra.
Qed.

(** the checks, read over the reals *)
Lemma facts : 0 < rK /\ 0 <= rad /\ length (dbtable t) = n /\
  Forall (fun q => ((Qnum q * SC) mod Zpos (Qden q) = 0)%Z) (dbtable t) /\
  (forall i, (i < n)%nat -> rsum n (fun k => Rabs (unit_ i k - CJ n Jr Cr i k)) <= 1 / 40) /\
  (forall i, (i < n)%nat -> rsum n (fun k => Rabs (unit_ i k - JC n Jr Cr i k)) <= 1 / 2) /\
  (forall i, (i < n)%nat -> Rabs (rsum n (fun m => Cr i m * Fr0 m)) <= IZR (errz t) / 10 ^ 20) /\
  (forall i, (i < n)%nat -> rsum n (fun m => Rabs (Cr i m)) <= 4096) /\
  IZR (errz t) / 10 ^ 20 + 1 / 40 * rad + 4096 * (INR n * rad * rad) <= rad /\
  1 / 40 + 4096 * (2 * INR n * rad) <= 1 / 2 /\
  0 < rsum n x0 - INR n * rad.
Proof.
  pose proof (checked_t t Ht) as C. unfold check_t in C. cbv zeta in C. fold N in C. fold n in C. fold X in C. fold K in C.
  repeat rewrite andb_true_iff in C. destruct C as ((((((((((D1 & D2) & D3) & D4) & D5) & D6) & D7) & D8) & D9) & D10) & D11).
  rewrite forallb_forall in D1, D3, D4, D5, D6. apply Nat.eqb_eq in D2. apply Z.leb_le in D7, D8, D9. apply Z.ltb_lt in D10, D11.
  pose proof s_pos as S0. assert (K0 : 0 < rK) by (unfold rK; apply IZR_lt; exact D10).
  assert (T20 : 0 < 10 ^ 20) by (apply pow_lt; lra).
  assert (E20 : IZR (10 ^ 20) = 10 ^ 20) by (symmetry; apply (pow_IZR 10 20)).
  assert (PKS : 0 < rK * (2 * s * s)) by (apply Rmult_lt_0_compat; [exact K0|]; apply Rmult_lt_0_compat; lra).
  assert (IN : forall i, (i < n)%nat -> In i (seq 0 n)) by (intros; apply in_seq; lia).
  assert (NZ : INR n = IZR (Z.of_nat n)) by apply INR_IZR_INZ.
  assert (UZ : forall i k, IZR (zunit i k) = unit_ i k) by (intros; unfold zunit, unit_; destruct (Nat.eqb i k); reflexivity).
  assert (SUM : forall (P : nat -> nat -> Z) (Q : nat -> nat -> R) c i, (0 < c)%Z ->
     (forall k, (k < n)%nat -> IZR (P i k) = rK * s * Q i k) ->
     (c * zsum n (fun k => Z.abs (K * SC * zunit i k - P i k)) <= K * SC)%Z ->
     rsum n (fun k => Rabs (unit_ i k - Q i k)) <= 1 / IZR c).
  { intros P Q c i Hc HP L. apply IZR_le in L. rewrite !mult_IZR, zsum_rsum in L. fold rK in L. fold s in L.
    rewrite (rsum_ext n _ (fun k => rK * s * Rabs (unit_ i k - Q i k))) in L.
    2:{ intros k Hk. rewrite abs_IZR, minus_IZR, !mult_IZR, HP, UZ by exact Hk. fold rK. fold s.
        rewrite <- (Rabs_pos_eq (rK * s)) at 3 by nra. rewrite <- Rabs_mult. f_equal. ring. }
    rewrite rsum_scal in L. apply IZR_lt in Hc. assert (0 < rK * s) by nra.
    apply Rmult_le_reg_l with (IZR c * (rK * s)); [nra|].
    replace (IZR c * (rK * s) * (1 / IZR c)) with (rK * s) by (field; lra).
    replace (IZR c * (rK * s) * rsum n (fun k => Rabs (unit_ i k - Q i k))) with (IZR c * (rK * s * rsum n (fun k => Rabs (unit_ i k - Q i k)))) by ring.
    exact L. }
  assert (JE : forall m k, IZR (jac N X m k) = s * Jr m k) by (intros; unfold Jr; fold N; fold X; fold s; field; lra).
  assert (CE : forall i m, IZR (ent (hint t) i m) = rK * Cr i m) by (intros; unfold Cr; fold K; fold rK; field; lra).
  assert (FE : forall m, IZR (defect N X m) = 2 * s * s * Fr0 m) by (intros; unfold Fr0; fold N; fold X; fold s; field; lra).
  assert (RE : IZR (radz t) = 10 ^ 20 * rad) by (unfold rad; field; lra).
  split; [exact K0|]. split.
  { unfold rad. apply Rmult_le_pos; [apply IZR_le; exact D9|]. left. apply Rinv_0_lt_compat. exact T20. }
  split; [exact D2|]. split.
  { apply Forall_forall. intros q Hq. apply Z.eqb_eq. exact (D1 q Hq). }
  split.
  { intros i Hi. apply (SUM (fun i k => zsum n (fun m => (ent (hint t) i m * ent (table n (jac N X)) m k)%Z)) (CJ n Jr Cr) 40%Z i ltac:(lia)).
    2:{ apply Z.leb_le. exact (D3 i (IN i Hi)). }
    intros k Hk. rewrite zsum_rsum. unfold CJ. rewrite <- rsum_scal. apply rsum_ext. intros m Hm.
    rewrite mult_IZR, (ent_table n _ m k Hm Hk), CE, JE. ring. }
  split.
  { intros i Hi. apply (SUM (fun i k => zsum n (fun m => (ent (table n (jac N X)) i m * ent (hint t) m k)%Z)) (JC n Jr Cr) 2%Z i ltac:(lia)).
    2:{ apply Z.leb_le. exact (D4 i (IN i Hi)). }
    intros k Hk. rewrite zsum_rsum. unfold JC. rewrite <- rsum_scal. apply rsum_ext. intros m Hm.
    rewrite mult_IZR, (ent_table n _ i m Hi Hm), CE, JE. ring. }
  split.
  { intros i Hi. pose proof (D5 i (IN i Hi)) as L. apply Z.leb_le in L. apply IZR_le in L.
    rewrite !mult_IZR, abs_IZR, zsum_rsum, E20 in L. fold rK in L. fold s in L.
    rewrite (rsum_ext n _ (fun m => rK * (2 * s * s) * (Cr i m * Fr0 m))) in L.
    2:{ intros m Hm. rewrite mult_IZR. rewrite (nth_indep _ 0%Z (defect N X 0)) by (rewrite map_length, seq_length; exact Hm).
        rewrite map_nth, seq_nth, Nat.add_0_l by exact Hm. rewrite CE, FE. ring. }
    rewrite rsum_scal, Rabs_mult, (Rabs_pos_eq (rK * (2 * s * s))) in L by lra.
    apply Rmult_le_reg_l with (10 ^ 20 * (rK * (2 * s * s))); [apply Rmult_lt_0_compat; lra|].
    replace (10 ^ 20 * (rK * (2 * s * s)) * (IZR (errz t) / 10 ^ 20)) with (IZR (errz t) * (rK * (2 * s * s))) by (field; lra). lra. }
  split.
  { intros i Hi. pose proof (D6 i (IN i Hi)) as L. apply Z.leb_le in L. apply IZR_le in L.
    rewrite mult_IZR, zsum_rsum in L. fold rK in L.
    rewrite (rsum_ext n _ (fun m => rK * Rabs (Cr i m))) in L.
    2:{ intros m Hm. rewrite abs_IZR, CE, Rabs_mult, (Rabs_pos_eq rK) by lra. reflexivity. }
    rewrite rsum_scal in L. apply Rmult_le_reg_l with rK; [exact K0|]. lra. }
  split.
  { apply IZR_le in D7. rewrite !plus_IZR, !mult_IZR, E20, RE, <- NZ in D7.
    replace (IZR (errz t)) with (10 ^ 20 * (IZR (errz t) / 10 ^ 20)) in D7 by (field; lra).
    set (e := IZR (errz t) / 10 ^ 20) in *. set (T := 10 ^ 20) in *. clearbody T e.
    apply Rmult_le_reg_l with (40 * T * T); [nra|]. match type of D7 with ?a <= ?b => match goal with |- ?c <= ?d => replace c with a by field; replace d with b by field; exact D7 end end. }
  split.
  { apply IZR_le in D8. rewrite !mult_IZR, E20, RE, <- NZ in D8.
    set (T := 10 ^ 20) in *. clearbody T. apply Rmult_le_reg_l with (40 * T); [nra|]. lra. }
  { apply IZR_lt in D11. rewrite minus_IZR, !mult_IZR, zsum_rsum, E20, RE, <- NZ in D11. fold s in D11.
    rewrite (rsum_ext n _ (fun k => s * x0 k)) in D11 by (intros; apply x0_div). rewrite rsum_scal in D11.
    set (T := 10 ^ 20) in *. clearbody T. apply Rmult_lt_reg_l with (s * T); [apply Rmult_lt_0_compat; lra|]. rewrite Rmult_0_r. match type of D11 with _ < ?b => match goal with |- _ < ?d => replace d with b by ring; exact D11 end end. }
Qed.

Lemma solution : exists x, (forall k, (k < n)%nat -> Rabs (x k - x0 k) <= rad) /\ forall m, (m < n)%nat -> eqn x m = 0.
Proof.
  destruct facts as (K0 & R0 & _ & _ & H1 & H2 & H3 & H4 & H5 & H6 & _).
  destruct (zero_near n Jr Cr Fr0 Br rad _ 4096 (1 / 40) R0 H1 H2 H3 H4) as (d & Hd & Vd); auto.
  - intros m d _ Hd. apply B_bound; auto.
  - intros m d e q Hm Hd He Hq. apply B_bound2; auto. eapply Rle_trans; [apply Rabs_pos|apply (Hq m Hm)].
  - exists (fun k => x0 k + d k). split.
    + intros k Hk. replace (x0 k + d k - x0 k) with (d k) by ring. exact (Hd k Hk).
    + intros m Hm. rewrite <- val_eqn. exact (Vd m Hm).
Qed.
End Daub.
