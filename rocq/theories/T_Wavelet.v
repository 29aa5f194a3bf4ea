(** * T_Wavelet: properties C40, C41, C42. *)
Require Import List Bool Arith ZArith Reals Lra Lia Sorting.Sorted.
Require Import Verif.M_Base Verif.M_Params Verif.M_Wavelet Verif.M_Buffer Verif.M_Real.
Require Import Verif.S_Params Verif.S_Buffer Verif.P_Paths Verif.P_More2 Verif.P_Api2.
Import ListNotations.
Open Scope nat_scope.

(** ** C42: rows of DaubechiesMat(n, 2t), for every arithmetic.  [lo] and [hi]
    are the reconstruction filters of DBt.  (For odd n the last row is empty.) *)
Theorem C42_rows (T : Type) (A : Arith T) n t :
  (1 <= t <= 10)%Z -> 2 * Z.to_nat t <= n ->
  exists D lo_d hi_d lo hi, daubechies_mat n (t * 2) = Ok D /\ filters t = Ok (lo_d, hi_d, lo, hi) /\
    srows D = n /\ scols D = n /\ length (srow D) = n /\
    length lo = 2 * Z.to_nat t /\ length hi = 2 * Z.to_nat t /\
    (forall i row f, i < n / 2 ->
       (nth_error (srow D) i = Some row /\ f = lo \/ nth_error (srow D) (n / 2 + i) = Some row /\ f = hi) ->
       length row = length f /\ StronglySorted lt (map fst row) /\ Forall (fun c => c < n) (map fst row) /\
       forall k v, nth_error f k = Some v -> In ((2 * i + k) mod n, v) row) /\
    (forall i row, 2 * (n / 2) <= i -> nth_error (srow D) i = Some row -> row = []).
Proof. exact (daub_rows n t). Qed.
Print Assumptions C42_rows.
(** a row that wraps around: DB2, 6 samples, row 2 has columns 0 1 4 5 *)
Example C42_case : exists D, @daubechies_mat Z Z_arith 6 4 = Ok D /\
  option_map (map fst) (nth_error (srow D) 2) = Some [0; 1; 4; 5].
Proof. eexists. split; vm_compute; reflexivity. Qed.

(** ** C41: both forms of the transform matrix give the same numbers. *)
Theorem C41_dwt (x : list R) t :
  (1 <= t <= 10)%Z -> 2 * Z.to_nat t <= length x ->
  exists D F lh, @daubechies_mat R exactR (length x) (t * 2) = Ok D /\ analysis_mat t = Ok F /\
    dwt x F = Ok lh /\ dwt x D = Ok lh.
Proof. exact (dwt_paths x t). Qed.
Print Assumptions C41_dwt.
Theorem C41_idwt (low high : list R) t :
  (1 <= t <= 10)%Z -> length low = length high -> Z.to_nat t <= length low -> length low <> 1 ->
  exists D S x, @daubechies_mat R exactR (2 * length low) (t * 2) = Ok D /\ synthesis_mat t = Ok S /\
    idwt low high S = Ok x /\ idwt low high (stranspose D) = Ok x.
Proof. exact (idwt_paths low high t). Qed.
Print Assumptions C41_idwt.
Example C41_case : (1 <= 3 <= 10)%Z /\ 2 * Z.to_nat 3 <= length (map INR (seq 0 9)).
Proof. split; [lia|]. rewrite map_length, seq_length. cbn. lia. Qed.

(** The excluded size: a 2 x 2 matrix is taken for a pair of filters, so idwt
    with the transposed full matrix of size 2 returns the two samples in the
    wrong order. *)
Theorem C41_idwt_size_2_refuted (x y : R) :
  exists D l h, @daubechies_mat R exactR 2 2 = Ok D /\ dwt [x; y] D = Ok ([l], [h]) /\
    idwt [l] [h] (stranspose D) = Ok [y; x].
Proof. exact (idwt_2x2 x y). Qed.
Print Assumptions C41_idwt_size_2_refuted.

(** ** C40: continue a decomposition of [steps q] steps up to [steps p].  The
    caller passes every channel grown to p's size; what the new places hold
    does not matter. *)
Definition grown {T} (p : params) (sub ch : list (mat T)) : Prop :=
  length sub = nsteps p * bands p + 1 /\ firstn (length ch) sub = ch.
Theorem C40_incremental p q (bp bq bp' bq' : buffer R) data den dec :
  accepted p -> accepted q ->
  shape q = shape p -> wtype q = wtype p -> signum q = signum p -> (steps q <= steps p)%Z ->
  level_rows q 0 = level_rows p 0 -> level_cols q 0 = level_cols p 0 ->
  (1 <= signum p)%Z -> Z.of_nat (length data) = signum p -> Forall (shaped p) data -> keeps_shape den ->
  @reachable R exactR q bq -> @reachable R exactR p bp ->
  @decompose R exactR bq data den = Ok (true, bq') -> @decompose R exactR bp data den = Ok (true, bp') ->
  Forall2 (grown p) dec (bdec bq') ->
  @decompose_more R exactR p dec (nsteps p - nsteps q) den = Ok (bdec bp').
Proof. exact (incremental_R p q bp bq bp' bq' data den dec). Qed.
Print Assumptions C40_incremental.
(** In 2D the same holds in every arithmetic, rounded ones included. *)
Theorem C40_incremental_2d (T : Type) (A : Arith T) p q (bp bq bp' bq' : buffer T) data den dec :
  accepted p -> accepted q -> is_1d p = false ->
  shape q = shape p -> wtype q = wtype p -> signum q = signum p -> (steps q <= steps p)%Z ->
  level_rows q 0 = level_rows p 0 -> level_cols q 0 = level_cols p 0 ->
  (1 <= signum p)%Z -> Z.of_nat (length data) = signum p -> Forall (shaped p) data -> keeps_shape den ->
  reachable q bq -> reachable p bp ->
  decompose bq data den = Ok (true, bq') -> decompose bp data den = Ok (true, bp') ->
  Forall2 (grown p) dec (bdec bq') ->
  decompose_more p dec (nsteps p - nsteps q) den = Ok (bdec bp').
Proof. exact (incremental_2d p q bp bq bp' bq' data den dec). Qed.
Print Assumptions C40_incremental_2d.
(** 24 x 16 with one, then three steps of DB1: no padding either way *)
Example C40_case : let p := Params [24; 16]%Z 2 3 1 in let q := Params [24; 16]%Z 2 1 1 in
  accepted p /\ accepted q /\ level_rows q 0 = level_rows p 0 /\ level_cols q 0 = level_cols p 0.
Proof.
  cbv zeta. unfold accepted, params_rep, legal, u64, i32; cbn [shape signum steps wtype length].
  repeat split; auto; repeat constructor; lia.
Qed.
