(** * T_ZeroDer: property C79. *)
Require Import List Bool Arith ZArith Reals Lra Lia.
Require Import Verif.M_Base Verif.M_Wavelet Verif.M_Buffer Verif.M_Real Verif.M_ZeroDer Verif.S_ZeroDer Verif.P_ZeroDer.
Import ListNotations.
Open Scope nat_scope.

(** ** C79: dwt with DaubechiesMat(n, 2 t, Padding::ZeroDerivative) filters the
    signal continued with its first and last sample; [lo] and [hi] are the
    reconstruction filters of DBt. *)
Theorem C79_filtering (x : list R) t :
  (1 <= t <= 10)%Z -> 2 * Z.to_nat t <= length x -> (Z.of_nat (length x) <= 2 ^ 31 - 10)%Z ->
  exists D lo_d hi_d lo hi, @daubechies_mat_pad R exactR (length x) (t * 2) ZeroDerivative = Ok D /\
    @filters R exactR t = Ok (lo_d, hi_d, lo, hi) /\
    dwt x D = Ok (map (edge_filter lo x) (seq 0 (length x / 2)), map (edge_filter hi x) (seq 0 (length x / 2))).
Proof. exact (zero_derivative x t). Qed.
Print Assumptions C79_filtering.
(** DB3, 9 samples: the first output uses sample 0 three times, the last
    (i = 3) reaches the last sample *)
Example C79_case : (1 <= 3 <= 10)%Z /\ 2 * Z.to_nat 3 <= length (map INR (seq 0 9)) /\
  edge_filter [1; 10; 100; 1000; 10000; 100000]%R [1; 2; 3; 4; 5; 6; 7; 8; 9]%R 0 = 432111%R /\
  edge_filter [1; 10; 100; 1000; 10000; 100000]%R [1; 2; 3; 4; 5; 6; 7; 8; 9]%R 3 = 998765%R.
Proof.
  split; [lia|]. split; [rewrite map_length, seq_length; cbn; lia|].
  split; unfold edge_filter, continued; cbn [length seq map fold_right];
    repeat match goal with |- context[Z.to_nat ?z] => let v := eval vm_compute in (Z.to_nat z) in change (Z.to_nat z) with v end;
    cbn [nth]; lra.
Qed.

(** A constant signal has (up to the printed digits of the coefficients) no
    high band, at the edges as well. *)
Theorem C79_constant (c : R) n t D low high :
  (1 <= t <= 10)%Z -> 2 * Z.to_nat t <= n -> (Z.of_nat n <= 2 ^ 31 - 10)%Z ->
  @daubechies_mat_pad R exactR n (t * 2) ZeroDerivative = Ok D -> dwt (repeat c n) D = Ok (low, high) ->
  length low = n / 2 /\ length high = n / 2 /\
  Forall (fun v => (Rabs (v - sqrt 2 * c) <= / 10 ^ 10 * Rabs c)%R) low /\
  Forall (fun v => (Rabs v <= / 10 ^ 10 * Rabs c)%R) high.
Proof. exact (constant_dwt c n t D low high). Qed.
Print Assumptions C79_constant.

(** idwt with the transposed matrix, the inverse in the periodized case (C41),
    is not one here: DB2 and the samples 1 0 0 0 give back more than 1.8. *)
Theorem C79_inverse_refuted : exists D low high y,
  @daubechies_mat_pad R exactR 4 4 ZeroDerivative = Ok D /\ dwt [1; 0; 0; 0]%R D = Ok (low, high) /\
  idwt low high (stranspose D) = Ok y /\ (18 / 10 <= nth 0 y 0)%R.
Proof. exact not_inverse. Qed.
Print Assumptions C79_inverse_refuted.

(** What the two assertions at the start rule out has no result, whatever the
    padding: an odd order, and an order above the size. *)
Theorem C79_refused n order padding : Z.even order = false \/ (Z.of_nat n < order)%Z ->
  @daubechies_mat_pad R exactR n order padding = UB.
Proof.
  intros H.
  assert (E : Z.even order && (order <=? Z.of_nat n)%Z = false)
    by (destruct H as [-> | H]; [reflexivity|rewrite (proj2 (Z.leb_gt _ _) H); apply andb_false_r]).
  destruct padding; unfold daubechies_mat_pad, daubechies_mat;
    destruct (Z.even order); cbn [guard bind]; try reflexivity; cbn in E; rewrite E; reflexivity.
Qed.
Print Assumptions C79_refused.
Example C79_refused_case : Z.even 5 = false /\ (Z.of_nat 4 < 6)%Z.
Proof. split; [reflexivity|lia]. Qed.

(** The bound of C79_filtering on the size is the int index's: from 2^31 + 2
    samples on, 2 * i overflows, and no matrix comes out for any order. *)
Theorem C79_int_limit n order D : (2 ^ 31 + 2 <= Z.of_nat n)%Z ->
  @daubechies_mat_pad R exactR n order ZeroDerivative <> Ok D.
Proof. exact (int_limit n order D). Qed.
Print Assumptions C79_int_limit.
Example C79_int_limit_case : (2 ^ 31 + 2 <= Z.of_nat (Z.to_nat (2 ^ 32)))%Z.
Proof. rewrite Z2Nat.id; lia. Qed.
