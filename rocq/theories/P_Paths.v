(** * P_Paths: DaubechiesMat rows, the two dwt/idwt paths, and incremental
    decomposition (C40, C41, C42). *)
Require Import List Bool Arith ZArith QArith Lia Reals Lra Sorting.Sorted.
Require Import ZifyBool.
Require Import Verif.M_Base Verif.M_Params Verif.M_Padding Verif.M_Wavelet Verif.M_Buffer Verif.M_Real.
Require Import Verif.S_Params Verif.S_Buffer.
Require Import Verif.P_Base Verif.P_Padding Verif.P_Wavelet Verif.P_Buffer Verif.P_Impl Verif.P_Api Verif.P_Api2.
Require Import Verif.P_Sum Verif.P_Lin.
Import ListNotations.
Open Scope nat_scope.

(** ** C42 *)
Section Rows.
Context {T : Type} {A : Arith T}.

Lemma sorted_map_seq (f : nat -> nat) s n :
  (forall a b, s <= a -> a < b -> b < s + n -> f a < f b) -> StronglySorted lt (map f (seq s n)).
Proof.
  revert s; induction n; intros s H; cbn [seq map]; constructor.
  - apply IHn. intros; apply H; lia.
  - apply Forall_forall. intros y Hy. apply in_map_iff in Hy as (b & <- & Hb). apply in_seq in Hb. apply H; lia.
Qed.

Lemma drow_facts n (f : list T) i : i < n / 2 -> 1 <= length f -> length f <= n ->
  length (drow n f i) = length f /\ StronglySorted lt (map fst (drow n f i)) /\
  Forall (fun c => c < n) (map fst (drow n f i)) /\
  forall k v, nth_error f k = Some v -> In ((2 * i + k) mod n, v) (drow n f i).
Proof.
  intros Hi HL Hn. pose proof (half_even n i Hi) as Hn0. split; [apply drow_length|]. split; [|split].
  - unfold drow. rewrite map_map. cbn [fst]. apply sorted_map_seq. intros. apply dpos_col_lt; auto. 
  - apply Forall_forall. intros c Hc. apply in_map_iff in Hc as (e & <- & He). apply (drow_cols n f i); auto; lia.
  - intros k v Hk. assert (Hkl : k < length f) by (apply nth_error_Some; congruence).
    unfold drow. apply in_map_iff.
    set (L := length f) in *. exists ((k + (L - dstart n L i mod L)) mod L). split.
    + assert (E : dpos n L i ((k + (L - dstart n L i mod L)) mod L) = k).
      { unfold dpos. set (d := dstart n L i). pose proof (Nat.mod_upper_bound d L ltac:(lia)) as Hd.
        rewrite Nat.add_mod_idemp_r by lia.
        rewrite (Nat.div_mod d L) at 1 by lia.
        replace (L * (d / L) + d mod L + (k + (L - d mod L))) with (k + (d / L + 1) * L) by nia.
        rewrite Nat.mod_add by lia. apply Nat.mod_small; auto. }
      rewrite E. f_equal. apply nth_error_nth; auto.
    + apply in_seq. pose proof (Nat.mod_upper_bound (k + (L - dstart n L i mod L)) L ltac:(lia)). lia.
Qed.

Lemma filters_ok t : (1 <= t <= 10)%Z -> @filters T A t = Ok (rev (lo_r t), rev (hi_r t), lo_r t, hi_r t).
Proof.
  intros Ht. unfold filters. destruct (Z.eqb_spec t 0); [lia|]. unfold dbwavf.
  replace ((t <=? 10)%Z && (0 <? t)%Z) with true by lia. reflexivity.
Qed.

Lemma nth_error_map_seq0 {B} (f : nat -> B) n i : i < n -> nth_error (map f (seq 0 n)) i = Some (f i).
Proof.
  intros Hi. rewrite nth_error_map. rewrite (nth_error_nth' (seq 0 n) 0) by (rewrite seq_length; auto).
  rewrite seq_nth by auto. reflexivity.
Qed.

Lemma daub_rows n t : (1 <= t <= 10)%Z -> 2 * Z.to_nat t <= n ->
  exists D lo_d hi_d lo hi, daubechies_mat n (t * 2) = Ok D /\ filters t = Ok (lo_d, hi_d, lo, hi) /\
    srows D = n /\ scols D = n /\ length (srow D) = n /\
    length lo = 2 * Z.to_nat t /\ length hi = 2 * Z.to_nat t /\
    (forall i row f, i < n / 2 ->
       (nth_error (srow D) i = Some row /\ f = lo \/ nth_error (srow D) (n / 2 + i) = Some row /\ f = hi) ->
       length row = length f /\ StronglySorted lt (map fst row) /\ Forall (fun c => c < n) (map fst row) /\
       forall k v, nth_error f k = Some v -> In ((2 * i + k) mod n, v) row) /\
    (forall i row, 2 * (n / 2) <= i -> nth_error (srow D) i = Some row -> row = []).
Proof.
  intros Ht Hn. eexists _, _, _, _, _. split; [apply daubechies_mat_ok; auto|]. split; [apply filters_ok; auto|].
  pose proof (lo_r_length t Ht) as HL. pose proof (hi_r_length t) as HH.
  pose proof (Nat.div_mod n 2 ltac:(lia)) as Hdm.
  assert (HF : forall i row f, i < n / 2 ->
       (nth_error (srow (dmat_pure n (lo_r t) (hi_r t))) i = Some row /\ f = lo_r t \/
        nth_error (srow (dmat_pure n (lo_r t) (hi_r t))) (n / 2 + i) = Some row /\ f = hi_r t) -> row = drow n f i).
  { intros i row f Hi H. unfold dmat_pure in H; cbn [srow] in H. destruct H as [[H ->]|[H ->]].
    - rewrite nth_error_app1 in H by (rewrite map_length, seq_length; auto).
      rewrite nth_error_map_seq0 in H by auto. congruence.
    - rewrite nth_error_app2 in H by (rewrite map_length, seq_length; lia). rewrite map_length, seq_length in H.
      rewrite nth_error_app1 in H by (rewrite map_length, seq_length; lia).
      rewrite nth_error_map_seq0 in H by lia. replace (n / 2 + i - n / 2) with i in H by lia. congruence. }
  split; [reflexivity|]. split; [reflexivity|]. split; [apply (dmat_pure_swf n); lia|]. split; [auto|]. split; [congruence|].
  split.
  - intros i row f Hi H. pose proof (HF i row f Hi H) as ->.
    destruct H as [[_ ->]|[_ ->]]; apply drow_facts; auto; rewrite ?HH, HL; lia.
  - intros i row Hi H. unfold dmat_pure in H; cbn [srow] in H.
    rewrite nth_error_app2 in H by (rewrite map_length, seq_length; lia). rewrite map_length, seq_length in H.
    rewrite nth_error_app2 in H by (rewrite map_length, seq_length; lia). rewrite map_length, seq_length in H.
    apply nth_error_In in H. apply repeat_spec in H. auto.
Qed.
End Rows.

(** ** C41, exact arithmetic *)
Lemma list_fun {B} (d : B) l : l = map (fun i => nth i l d) (seq 0 (length l)).
Proof.
  apply (nth_ext _ _ d d).
  - rewrite map_length, seq_length; auto.
  - intros n Hn. rewrite nth_map_seq; auto.
Qed.

Section RR.
Local Existing Instance exactR.
Lemma drow_afilt n (f : list R) i x : 0 < n -> 0 < length f -> rowdot (drow n f i) x = afilt f n x i.
Proof. intros. rewrite drow_ent, afilt_ent by auto. reflexivity. Qed.

Lemma dwt_full (lo hi : list R) n (x : nat -> R) : length hi = length lo -> 1 <= length lo -> length lo <= n -> n <> 2 ->
  dwt (map x (seq 0 n)) (dmat_pure n lo hi) =
  Ok (map (afilt lo n x) (seq 0 (n / 2)), map (afilt hi n x) (seq 0 (n / 2))).
Proof.
  intros HH HL Hn N2. unfold dwt. rewrite map_length, seq_length. cbn [scols srows dmat_pure].
  rewrite guard_true by lia. cbn [bind]. destruct (Nat.eqb_spec n 2); [lia|]. rewrite Nat.eqb_refl.
  rewrite (spmv_ok (dmat_pure n lo hi) x n) by (auto; apply dmat_pure_swf; lia). cbn [bind].
  unfold dmat_pure; cbn [srow]. rewrite !map_app, !map_map.
  pose proof (Nat.div_mod n 2 ltac:(lia)) as Hdm.
  unfold subvec. rewrite !app_length, !map_length, !seq_length, repeat_length.
  replace (0 + n / 2 <=? n / 2 + (n / 2 + (n - (n / 2 + n / 2)))) with true by lia. cbn [check bind skipn].
  replace (n / 2 + n / 2 <=? n / 2 + (n / 2 + (n - (n / 2 + n / 2)))) with true by lia. cbn [check bind].
  assert (E : forall f, 0 < length f -> map (fun i => rowdot (drow n f i) x) (seq 0 (n / 2)) = map (afilt f n x) (seq 0 (n / 2))).
  { intros f Hf. apply map_ext. intros i. apply drow_afilt; auto; lia. }
  rewrite !E by lia.
  f_equal. f_equal.
  - rewrite firstn_app, map_length, seq_length, Nat.sub_diag. cbn [firstn].
    rewrite app_nil_r. apply firstn_all2. rewrite map_length, seq_length; lia.
  - rewrite skipn_app, map_length, seq_length, Nat.sub_diag. cbn [skipn].
    rewrite (skipn_all2 (map (afilt lo n x) _)) by (rewrite map_length, seq_length; lia). cbn [app].
    rewrite firstn_app, map_length, seq_length, Nat.sub_diag. cbn [firstn].
    rewrite app_nil_r. apply firstn_all2. rewrite map_length, seq_length; lia.
Qed.

Lemma dmat_2 {T} {A : Arith T} (lo hi : list T) : length lo = 2 -> length hi = 2 -> dmat_pure 2 lo hi = filter_mat lo hi.
Proof.
  intros H1 H2. destruct lo as [|a [|b [|]]]; try discriminate. destruct hi as [|c [|d [|]]]; try discriminate.
  reflexivity.
Qed.

Lemma dwt_paths (x : list R) t : (1 <= t <= 10)%Z -> 2 * Z.to_nat t <= length x ->
  exists D F lh, daubechies_mat (length x) (t * 2) = Ok D /\ analysis_mat t = Ok F /\
    dwt x F = Ok lh /\ dwt x D = Ok lh.
Proof.
  intros Ht Hn. pose proof (lo_r_length t Ht) as HL. pose proof (hi_r_length t) as HH.
  exists (dmat_pure (length x) (lo_r t) (hi_r t)), (filter_mat (lo_r t) (hi_r t)).
  exists (let n := length x in let f := fun i => nth i x 0%R in
    (map (afilt (lo_r t) n f) (seq 0 (n / 2)), map (afilt (hi_r t) n f) (seq 0 (n / 2)))).
  split; [apply daubechies_mat_ok; auto|]. split.
  { unfold analysis_mat. rewrite filters_ok by auto. cbn [bind]. rewrite !rev_involutive. reflexivity. }
  cbv zeta. set (n := length x) in *. assert (Ex := list_fun 0%R x). fold n in Ex.
  set (f := fun i => nth i x 0%R) in *. rewrite Ex. clear Ex.
  split; [apply dwt_filter; lia|].
  destruct (Nat.eq_dec n 2) as [E|E].
  - rewrite E. rewrite dmat_2 by lia. apply dwt_filter; lia.
  - apply dwt_full; lia.
Qed.

Lemma idwt_paths (low high : list R) t : (1 <= t <= 10)%Z -> length low = length high ->
  Z.to_nat t <= length low -> length low <> 1 ->
  exists D S x, daubechies_mat (2 * length low) (t * 2) = Ok D /\ synthesis_mat t = Ok S /\
    idwt low high S = Ok x /\ idwt low high (stranspose D) = Ok x.
Proof.
  intros Ht HE Hn N1. pose proof (lo_r_length t Ht) as HL. pose proof (hi_r_length t) as HH.
  set (N := length low) in *.
  exists (dmat_pure (2 * N) (lo_r t) (hi_r t)), (filter_mat (rev (lo_r t)) (rev (hi_r t))).
  exists (map (sfilt (rev (lo_r t)) (rev (hi_r t)) N (fun i => nth i low 0%R) (fun i => nth i high 0%R)) (seq 0 (2 * N))).
  split; [apply daubechies_mat_ok; auto; lia|]. split.
  { unfold synthesis_mat. rewrite filters_ok by auto. reflexivity. }
  assert (El : low = map (fun i => nth i low 0%R) (seq 0 N)) by apply list_fun.
  assert (Eh : high = map (fun i => nth i high 0%R) (seq 0 N)) by (rewrite (list_fun 0%R high) at 1; rewrite <- HE; reflexivity).
  split.
  - rewrite El at 1. rewrite Eh at 1. apply (idwt_filter _ _ (Z.to_nat t)); rewrite ?rev_length; lia.
  - unfold idwt. fold N. rewrite guard_true by lia. cbn [bind].
    cbn [srows stranspose dmat_pure scols]. destruct (Nat.eqb_spec (2 * N) 2); [lia|].
    set (z := fun r => if Nat.ltb r N then nth r low 0%R else nth (r - N) high 0%R).
    assert (Ez : low ++ high = map z (seq 0 (2 * N))).
    { apply (nth_ext _ _ 0%R 0%R).
      - rewrite app_length, map_length, seq_length. lia.
      - intros r Hr. rewrite app_length in Hr. rewrite nth_map_seq by lia. unfold z.
        destruct (Nat.ltb_spec r N).
        + apply app_nth1; auto.
        + apply app_nth2; auto. }
    rewrite Ez. change (SMat _ _ _) with (stranspose (dmat_pure (2 * N) (lo_r t) (hi_r t))).
    assert (W : swf (stranspose (dmat_pure (2 * N) (@lo_r R exactR t) (hi_r t)))) by (apply stranspose_swf, dmat_pure_swf; lia).
    rewrite (spmv_ok _ z (2 * N)) by auto. f_equal. rewrite map_srow by auto. cbn [srows stranspose dmat_pure scols].
    apply map_ext_in. intros c Hc. apply in_seq in Hc.
    change (SMat _ _ _) with (stranspose (dmat_pure (2 * N) (@lo_r R exactR t) (hi_r t))).
    rewrite dmat_mvT; [| lia | rewrite Nat.even_mul; reflexivity | lia | lia].
    symmetry. rewrite (sfilt_mvT (lo_r t) (hi_r t) (Z.to_nat t)) by lia. reflexivity.
Qed.
End RR.
