(** * P_Daub2: the filters of the library against Daubechies' filters *)
Require Import List Bool Arith ZArith QArith Qreals Reals Lra Lia.
Require Import Verif.M_Base Verif.M_Wavelet Verif.M_Buffer Verif.M_Real Verif.S_Exact Verif.S_Daub.
Require Import Verif.P_Wavelet Verif.P_Sum Verif.P_PR Verif.P_Exact Verif.P_Kant Verif.P_Daub.
Import ListNotations.
Open Scope R_scope.

(** the square of the sum and of the alternating sum make twice the sum of the
    even correlations *)
Definition corr (N : nat) (x : nat -> R) (m : nat) : R := rsum (2 * N - 2 * m) (fun k => x k * x (k + 2 * m)%nat).

Lemma rsum_pairs N (f : nat -> R) : rsum (2 * N) f = rsum N (fun i => f (2 * i)%nat + f (2 * i + 1)%nat).
Proof.
  induction N; [reflexivity|]. replace (2 * S N)%nat with (S (S (2 * N))) by lia. cbn [rsum]. rewrite IHN.
  replace (S (2 * N)) with (2 * N + 1)%nat by lia. ring.
Qed.
Lemma square_sum N (e : nat -> R) : rsum N e * rsum N e = 2 * rsum N (fun m => rsum (N - m) (fun i => e i * e (i + m)%nat)) - rsum N (fun i => e i * e i).
Proof.
  induction N; [cbn [rsum]; ring|].
  assert (E : rsum (S N) (fun m => rsum (S N - m) (fun i => e i * e (i + m)%nat)) =
              rsum N (fun m => rsum (N - m) (fun i => e i * e (i + m)%nat)) + rsum (S N) (fun i => e i * e N)).
  { cbn [rsum]. replace (S N - N)%nat with 1%nat by lia. cbn [rsum]. rewrite Nat.add_0_l.
    rewrite (rsum_ext N _ (fun m => rsum (N - m) (fun i => e i * e (i + m)%nat) + e (N - m)%nat * e N)).
    2:{ intros m Hm. replace (S N - m)%nat with (S (N - m)) by lia. cbn [rsum]. replace (N - m + m)%nat with N by lia. reflexivity. }
    rewrite rsum_plus.
    assert (R : forall q, (q <= N)%nat -> rsum q (fun m => e (N - m)%nat * e N) = rsum q (fun i => e (N - q + 1 + i)%nat * e N)).
    { induction q; intro Hq; [reflexivity|].
      replace (rsum (S q) (fun i => e (N - S q + 1 + i)%nat * e N)) with (rsum (1 + q) (fun i => e (N - S q + 1 + i)%nat * e N)) by reflexivity.
      rewrite rsum_add. cbn [rsum]. rewrite IHq by lia.
      rewrite (rsum_ext q (fun k => e (N - S q + 1 + (1 + k))%nat * e N) (fun i => e (N - q + 1 + i)%nat * e N)).
      2:{ intros i Hi. f_equal. f_equal. lia. }
      replace (N - S q + 1 + 0)%nat with (N - q)%nat by lia. ring. }
    rewrite (R N (le_n N)). replace (N - N + 1)%nat with 1%nat by lia.
    assert (Q : rsum N (fun i => e i * e N) + e N * e N = e 0%nat * e N + rsum N (fun i => e (1 + i)%nat * e N)).
    { change (rsum N (fun i => e i * e N) + e N * e N) with (rsum (1 + N) (fun i => e i * e N)).
      rewrite rsum_add. cbn [rsum]. rewrite Rplus_0_l. reflexivity. }
    rewrite Q. ring. }
  rewrite E. clear E. cbn [rsum]. rewrite rsum_scal_r. lra.
Qed.

Lemma corr_split N x m : (m <= N)%nat -> corr N x m =
  rsum (N - m) (fun i => x (2 * i)%nat * x (2 * (i + m))%nat) + rsum (N - m) (fun i => x (2 * i + 1)%nat * x (2 * (i + m) + 1)%nat).
Proof.
  intro H. unfold corr. replace (2 * N - 2 * m)%nat with (2 * (N - m))%nat by lia. rewrite rsum_pairs, rsum_plus. f_equal; apply rsum_ext; intros i _.
  - replace (2 * i + 2 * m)%nat with (2 * (i + m))%nat by lia. reflexivity.
  - replace (2 * i + 1 + 2 * m)%nat with (2 * (i + m) + 1)%nat by lia. reflexivity.
Qed.

Lemma sum_alternating N x : (0 < N)%nat ->
  rsum (2 * N) x * rsum (2 * N) x + rsum (2 * N) (fun k => (-1) ^ k * x k) * rsum (2 * N) (fun k => (-1) ^ k * x k) =
  2 * (2 * rsum N (corr N x) - corr N x 0).
Proof.
  intro HN. set (e := fun i => x (2 * i)%nat). set (o := fun i => x (2 * i + 1)%nat).
  assert (E1 : rsum (2 * N) x = rsum N e + rsum N o) by (rewrite rsum_pairs, rsum_plus; reflexivity).
  assert (E2 : rsum (2 * N) (fun k => (-1) ^ k * x k) = rsum N e - rsum N o).
  { rewrite rsum_pairs, <- rsum_minus. apply rsum_ext. intros i _. unfold e, o. rewrite pow_add, pow_1_even. cbn [pow]. ring. }
  assert (E3 : rsum N (corr N x) = rsum N (fun m => rsum (N - m) (fun i => e i * e (i + m)%nat)) + rsum N (fun m => rsum (N - m) (fun i => o i * o (i + m)%nat))).
  { rewrite <- rsum_plus. apply rsum_ext. intros m Hm. rewrite corr_split by lia. reflexivity. }
  assert (E4 : corr N x 0 = rsum N (fun i => e i * e i) + rsum N (fun i => o i * o i)).
  { rewrite corr_split by lia. rewrite Nat.sub_0_r. f_equal; apply rsum_ext; intros i _; rewrite Nat.add_0_r; reflexivity. }
  pose proof (square_sum N e) as S1. pose proof (square_sum N o) as S2. rewrite E1, E2, E3, E4. nra.
Qed.

Lemma moments_poly n (w : nat -> R) : forall c q M, (forall j, (j < M)%nat -> rsum n (fun k => w k * INR k ^ j) = 0) ->
  (q + length c <= M)%nat -> rsum n (fun k => w k * INR k ^ q * peval c (INR k)) = 0.
Proof.
  induction c as [|a c IH]; intros q M H L.
  - apply rsum_zero. intros k _. cbn [peval]. ring.
  - cbn [length] in L. cbn [peval].
    rewrite (rsum_ext n _ (fun k => a * (w k * INR k ^ q) + w k * INR k ^ S q * peval c (INR k))).
    2:{ intros k _. cbn [pow]. ring. }
    rewrite rsum_plus, rsum_scal, (H q) by lia. rewrite (IH (S q) M H) by lia. ring.
Qed.

Lemma Rabs_alt k : Rabs ((-1) ^ k) = 1.
Proof. rewrite <- RPow_abs. replace (Rabs (-1)) with 1 by (rewrite Rabs_left; lra). apply pow1. Qed.

Section Filters.
Variable t : Z.
Hypothesis Ht : (1 <= t <= 10)%Z.
Let N := Z.to_nat t.

Lemma table_value k : (k < 2 * N)%nat -> Q2R (nth k (dbtable t) 0%Q) = x0 t k.
Proof.
  intro Hk. destruct (facts t Ht) as (_ & _ & L & D & _). fold N in L.
  assert (I : In (nth k (dbtable t) 0%Q) (dbtable t)) by (apply nth_In; rewrite L; exact Hk).
  rewrite Forall_forall in D. specialize (D _ I).
  unfold x0, Xl. set (f := fun q => (Qnum q * SC / Zpos (Qden q))%Z). rewrite (nth_indep _ 0%Z (f 0%Q)) by (rewrite map_length, L; exact Hk).
  rewrite (map_nth f). unfold f. clear f. set (q := nth k (dbtable t) 0%Q) in *. unfold Q2R.
  pose proof (Z.div_mod (Qnum q * SC) (Zpos (Qden q)) ltac:(lia)) as E. rewrite D, Z.add_0_r in E.
  apply (f_equal IZR) in E. rewrite !mult_IZR in E.
  assert (P1 : 0 < IZR (Zpos (Qden q))) by (apply IZR_lt; lia). assert (P2 : 0 < IZR SC) by (apply IZR_lt; reflexivity).
  apply Rmult_eq_reg_r with (IZR (Zpos (Qden q)) * IZR SC); [|nra].
  replace (IZR (Qnum q) * / IZR (Zpos (Qden q)) * (IZR (Zpos (Qden q)) * IZR SC)) with (IZR (Qnum q) * IZR SC) by (field; lra).
  rewrite E. field. lra.
Qed.

Lemma exact_filter : exists h, daubechies N h /\ forall k, (k < 2 * N)%nat -> Rabs (sqrt 2 * x0 t k - h k) <= sqrt 2 * rad t.
Proof.
  destruct (solution t Ht) as (x & Hx & Ex). fold N in Hx, Ex.
  destruct (facts t Ht) as (_ & _ & _ & _ & _ & _ & _ & _ & _ & _ & POS). fold N in POS.
  assert (HN : (0 < N)%nat) by (unfold N; lia).
  assert (S2 : sqrt 2 * sqrt 2 = 2) by (apply sqrt_sqrt; lra). assert (P2 : 0 < sqrt 2) by (apply sqrt_lt_R0; lra).
  assert (CO : forall m, (m < N)%nat -> corr N x m = if Nat.eqb m 0 then 1 / 2 else 0).
  { intros m Hm. specialize (Ex m ltac:(lia)). unfold eqn in Ex. fold N in Ex. rewrite (proj2 (Nat.ltb_lt m N) Hm) in Ex. unfold corr. lra. }
  assert (MO : forall j, (j < N)%nat -> rsum (2 * N) (fun k => (-1) ^ k * x k * INR k ^ j) = 0).
  { intros j Hj. specialize (Ex (N + j)%nat ltac:(lia)). unfold eqn in Ex. fold N in Ex.
    rewrite (proj2 (Nat.ltb_ge (N + j) N) ltac:(lia)) in Ex. replace (N + j - N)%nat with j in Ex by lia.
    rewrite <- Ex. apply rsum_ext. intros. ring. }
  assert (SU : rsum (2 * N) x = 1).
  { pose proof (sum_alternating N x HN) as E. specialize (MO 0%nat HN). rewrite (rsum_ext _ _ (fun k => (-1) ^ k * x k)) in MO by (intros; cbn [pow]; ring).
    rewrite MO in E. rewrite (rsum_ext N (corr N x) (fun m => unit_ 0 m * (1 / 2))) in E.
    2:{ intros m Hm. rewrite (CO m Hm). unfold unit_. destruct m; cbn [Nat.eqb]; ring. }
    rewrite (rsum_unit N (fun _ => 1 / 2) 0 HN), (CO 0%nat HN) in E. cbn [Nat.eqb] in E.
    assert (G : 0 < rsum (2 * N) x).
    { assert (B : Rabs (rsum (2 * N) (fun k => x k - x0 t k)) <= INR (2 * N) * rad t).
      { eapply Rle_trans; [apply rsum_abs|]. rewrite <- rsum_const. apply rsum_le. exact Hx. }
      rewrite rsum_minus in B. unfold Rabs in B. destruct (Rcase_abs _) in B; lra. }
    nra. }
  exists (fun k => sqrt 2 * x k). split; [split; [|split]|].
  - intros m Hm. rewrite total_rsum, (rsum_ext _ _ (fun k => 2 * (x k * x (k + 2 * m)%nat))) by (intros k _; transitivity (sqrt 2 * sqrt 2 * (x k * x (k + 2 * m)%nat)); [ring|rewrite S2; ring]).
    rewrite rsum_scal. specialize (CO m Hm). unfold corr in CO. rewrite CO. destruct (Nat.eqb m 0); lra.
  - intros c Hc. rewrite total_rsum, (rsum_ext _ _ (fun k => sqrt 2 * ((-1) ^ k * x k * INR k ^ 0 * peval c (INR k)))) by (intros; cbn [pow]; ring).
    rewrite rsum_scal, (moments_poly (2 * N) (fun k => (-1) ^ k * x k) c 0 N MO) by lia. ring.
  - rewrite total_rsum, rsum_scal, SU. ring.
  - intros k Hk. specialize (Hx k Hk). replace (sqrt 2 * x0 t k - sqrt 2 * x k) with (sqrt 2 * - (x k - x0 t k)) by ring.
    rewrite Rabs_mult, Rabs_Ropp, (Rabs_pos_eq (sqrt 2)) by lra. apply Rmult_le_compat_l; lra.
Qed.

Lemma accuracy_rad : sqrt 2 * rad t <= printed_accuracy t.
Proof.
  assert (S : sqrt 2 <= 14143 / 10000).
  { apply Rsqr_incr_0_var; [|lra]. rewrite Rsqr_sqrt by lra. unfold Rsqr. lra. }
  assert (T : 10 ^ 20 = 100 * 10 ^ 18) by ring.
  unfold rad, printed_accuracy. rewrite T. assert (P : 0 < / 10 ^ 18) by (apply Rinv_0_lt_compat, pow_lt; lra).
  assert (H : forall a b, (0 <= a)%Z -> (14143 * a <= 1000000 * b)%Z -> sqrt 2 * (IZR a / (100 * 10 ^ 18)) <= IZR b / 10 ^ 18).
  { intros a b Ha L. apply IZR_le in Ha, L. rewrite !mult_IZR in L.
    assert (Q : 10 ^ 18 <> 0) by (apply pow_nonzero; lra).
    replace (sqrt 2 * (IZR a / (100 * 10 ^ 18))) with (sqrt 2 * IZR a / 100 * / 10 ^ 18) by (field; exact Q).
    unfold Rdiv at 2. apply Rmult_le_compat_r; [lra|]. nra. }
  apply H; assert (D : (t = 1 \/ t = 2 \/ t = 3 \/ t = 4 \/ t = 5 \/ t = 6 \/ t = 7 \/ t = 8 \/ t = 9 \/ t = 10)%Z) by lia;
    destruct D as [E|[E|[E|[E|[E|[E|[E|[E|[E|E]]]]]]]]]; rewrite E; cbn [radz]; lia.
Qed.

Lemma hi_check : forallb (fun t => forallb (fun k => Qeq_bool (nth k (hiQ t) 0%Q) (if Nat.even k then nth (2 * Z.to_nat t - 1 - k) (loQ t) 0%Q else Qopp (nth (2 * Z.to_nat t - 1 - k) (loQ t) 0%Q)))
  (seq 0 (2 * Z.to_nat t))) [1; 2; 3; 4; 5; 6; 7; 8; 9; 10]%Z = true.
Proof. vm_compute. reflexivity. Qed.
Lemma hi_of_lo k : (k < 2 * N)%nat -> nth k (@hi_r R exactR t) 0 = (-1) ^ k * nth (2 * N - 1 - k) (@lo_r R exactR t) 0.
Proof.
  intro Hk. rewrite hi_up, lo_up, !nth_up. pose proof hi_check as C. rewrite forallb_forall in C.
  specialize (C t ltac:(cbn [In]; lia)). rewrite forallb_forall in C. fold N in C. specialize (C k ltac:(apply in_seq; lia)).
  apply Qeq_bool_eq, Qeq_eqR in C. unfold up2. rewrite C. rewrite <- alt_pow. unfold alt. destruct (Nat.even k); [|rewrite Q2R_opp]; ring.
Qed.
Lemma lo_value k : (k < 2 * N)%nat -> nth k (@lo_r R exactR t) 0 = sqrt 2 * x0 t k.
Proof.
  intro Hk. rewrite lo_up, nth_up. unfold up2. rewrite <- (table_value k Hk).
  replace (loQ t) with (dbtable t); [reflexivity|]. unfold loQ, lo_r. rewrite map_map. symmetry. apply map_id.
Qed.

Theorem near_daubechies : exists h, daubechies N h /\
  forall k, (k < 2 * N)%nat -> Rabs (nth k (@lo_r R exactR t) 0 - h k) <= printed_accuracy t /\
                              Rabs (nth k (@hi_r R exactR t) 0 - (-1) ^ k * h (2 * N - 1 - k)%nat) <= printed_accuracy t.
Proof.
  destruct exact_filter as (h & Dh & Hh). exists h. split; [exact Dh|].
  assert (L : forall k, (k < 2 * N)%nat -> Rabs (nth k (@lo_r R exactR t) 0 - h k) <= printed_accuracy t).
  { intros k Hk. rewrite (lo_value k Hk). eapply Rle_trans; [apply Hh, Hk|apply accuracy_rad]. }
  intros k Hk. split; [apply L, Hk|]. rewrite (hi_of_lo k Hk), <- Rmult_minus_distr_l, Rabs_mult, Rabs_alt, Rmult_1_l.
  apply L. lia.
Qed.
End Filters.
