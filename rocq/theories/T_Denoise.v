(** * T_Denoise: properties C28, C29, C30 (the library denoisers). *)
Require Import List Bool Arith ZArith Lia Reals Lra.
Require Import Verif.M_Base Verif.M_Params Verif.M_Buffer Verif.M_Real Verif.M_Denoise.
Require Import Verif.S_Params Verif.S_Buffer Verif.S_Denoise Verif.P_Api Verif.P_Api2 Verif.P_Denoise.
Import ListNotations.
Open Scope nat_scope.

(** ** C28: ThresholdAbsDenoiseAlgorithm(a, b) *)
(** For every type of samples (NaN included: [mgt] is the type's own ">"):
    same shape, a value stays iff its magnitude is > a*step+b and becomes 0
    otherwise, and doing it again changes nothing. *)
Theorem C28_threshold_1d (T : Type) (A : Arith T) (M : Mag T) (a b : T) data step :
  exists out, threshold1 a b data step = Ok out /\ length out = length data /\
    (forall i x, nth_error data i = Some x ->
       nth_error out i = Some (if mgt (mabs x) (aadd (amul a (mnat step)) b) then x else a0)) /\
    threshold1 a b out step = Ok out.
Proof. exact (threshold_semantics1 a b data step). Qed.
Print Assumptions C28_threshold_1d.

Theorem C28_threshold_2d (T : Type) (A : Arith T) (M : Mag T) (a b : T) data step : mwf data ->
  exists out, threshold2 a b data step = Ok out /\ sized (rows data) (cols data) out /\
    (forall i j x, mget data i j = Ok x ->
       mget out i j = Ok (if mgt (mabs x) (aadd (amul a (mnat step)) b) then x else a0)) /\
    threshold2 a b out step = Ok out.
Proof. exact (threshold_semantics2 a b data step). Qed.
Print Assumptions C28_threshold_2d.

(** Over the reals, in ordinary notation. *)
Theorem C28_threshold_real (a b : R) step :
  (forall data, exists out, threshold1 a b data step = Ok out /\ length out = length data /\
    (forall i x, nth_error data i = Some x -> exists y, nth_error out i = Some y /\
       (a * INR step + b < Rabs x -> y = x)%R /\ (Rabs x <= a * INR step + b -> y = 0)%R) /\
    threshold1 a b out step = Ok out) /\
  (forall data, mwf data -> exists out, threshold2 a b data step = Ok out /\ sized (rows data) (cols data) out /\
    (forall i j x, mget data i j = Ok x -> exists y, mget out i j = Ok y /\
       (a * INR step + b < Rabs x -> y = x)%R /\ (Rabs x <= a * INR step + b -> y = 0)%R) /\
    threshold2 a b out step = Ok out).
Proof. exact (conj (fun d => threshold_real1 a b d step) (fun d => threshold_real2 a b d step)). Qed.
Print Assumptions C28_threshold_real.

(** Handed to Decompose: every detail value of step s is kept or zeroed by
    that rule with threshold a*s+b, and the approximation is untouched. *)
Theorem C28_in_decompose (T : Type) (A : Arith T) (M : Mag T) p (b : buffer T) data ta tb :
  accepted p -> reachable p b ->
  (1 <= signum p)%Z -> Z.of_nat (length data) = signum p -> Forall (shaped p) data ->
  exists b1 b0, decompose b data (threshold_denoiser ta tb) = Ok (true, b1) /\
    decompose b data null_denoiser = Ok (true, b0) /\
  forall c ch1 ch0, nth_error (bdec b1) c = Some ch1 -> nth_error (bdec b0) c = Some ch0 ->
    nth_error ch1 (nsteps p * bands p) = nth_error ch0 (nsteps p * bands p) /\
    forall s i d1 d0, s < nsteps p -> i < bands p ->
      nth_error ch1 (s * bands p + i) = Some d1 -> nth_error ch0 (s * bands p + i) = Some d0 ->
      elts d1 = map (fun x => if mgt (mabs x) (aadd (amul ta (mnat s)) tb) then x else a0) (elts d0).
Proof. exact (threshold_in_decompose p b b data ta tb). Qed.
Print Assumptions C28_in_decompose.

(** ** C29: SimpleDenoiseAlgorithm(level) *)
(** Whatever std::nth_element does within its contract: with n values and
    [drop] = trunc(n*level), exactly n - min(drop, n-1) positions survive
    unchanged, all others become 0, and no dropped value is greater in
    magnitude than a surviving one. *)
Theorem C29_keeps_largest_1d (T : Type) (A : Arith T) (M : Mag T) ne level (data : list T) drop :
  nth_element_contract ne -> mtrunc (length data) level = Ok drop ->
  exists out keep, simple1 ne level data = Ok out /\
    NoDup keep /\ Forall (fun i => i < length data) keep /\
    length keep = length data - Nat.min drop (length data - 1) /\
    keeps_only1 keep data out /\
    forall i j x y, In i keep -> ~ In j keep -> nth_error data i = Some x -> nth_error data j = Some y ->
      mgt (mabs y) (mabs x) = false.
Proof. exact (simple1_ok ne level data drop). Qed.
Print Assumptions C29_keeps_largest_1d.

Theorem C29_keeps_largest_2d (T : Type) (A : Arith T) (M : Mag T) ne level (data : mat T) drop :
  mwf data -> nth_element_contract ne -> mtrunc (rows data * cols data) level = Ok drop ->
  exists out keep, simple2 ne level data = Ok out /\
    NoDup keep /\ Forall (fun p => fst p < rows data /\ snd p < cols data) keep /\
    length keep = rows data * cols data - Nat.min drop (rows data * cols data - 1) /\
    keeps_only2 keep data out /\
    forall i j i' j' x y, In (i, j) keep -> ~ In (i', j') keep -> mget data i j = Ok x -> mget data i' j' = Ok y ->
      mgt (mabs y) (mabs x) = false.
Proof. exact (simple2_ok ne level data drop). Qed.
Print Assumptions C29_keeps_largest_2d.

(** Over the reals every level in [0,1] is fine: drop = floor(n*level). *)
Theorem C29_real ne1 ne2 (level : R) :
  nth_element_contract ne1 -> nth_element_contract ne2 -> (0 <= level <= 1)%R ->
  (forall data : list R, exists out keep drop, simple1 ne1 level data = Ok out /\
    (INR drop <= INR (length data) * level < INR drop + 1)%R /\
    NoDup keep /\ Forall (fun i => i < length data) keep /\
    length keep = length data - Nat.min drop (length data - 1) /\
    keeps_only1 keep data out /\
    forall i j x y, In i keep -> ~ In j keep -> nth_error data i = Some x -> nth_error data j = Some y ->
      (Rabs y <= Rabs x)%R) /\
  (forall data : mat R, mwf data -> exists out keep drop, simple2 ne2 level data = Ok out /\
    (INR drop <= INR (rows data * cols data) * level < INR drop + 1)%R /\
    NoDup keep /\ Forall (fun p => fst p < rows data /\ snd p < cols data) keep /\
    length keep = rows data * cols data - Nat.min drop (rows data * cols data - 1) /\
    keeps_only2 keep data out /\
    forall i j i' j' x y, In (i, j) keep -> ~ In (i', j') keep -> mget data i j = Ok x -> mget data i' j' = Ok y ->
      (Rabs y <= Rabs x)%R).
Proof. exact (fun H1 H2 Hl => conj (fun d => simple_real1 ne1 level d H1 Hl) (fun d W => simple_real2 ne2 level d W H2 Hl)). Qed.
Print Assumptions C29_real.

(** Level 0 keeps everything. *)
Theorem C29_level_0 ne1 ne2 : nth_element_contract ne1 -> nth_element_contract ne2 ->
  (forall data : list R, simple1 ne1 0%R data = Ok data) /\
  (forall data : mat R, mwf data -> simple2 ne2 0%R data = Ok data).
Proof. exact (simple_level0_real ne1 ne2). Qed.
Print Assumptions C29_level_0.

(** Both denoisers are shape-keeping, so every theorem about Decompose with
    a [keeps_shape] denoiser covers them. *)
Theorem C29_usable_with_decompose ne1 ne2 (level : R) :
  nth_element_contract ne1 -> nth_element_contract ne2 -> (0 <= level <= 1)%R ->
  keeps_shape (simple_denoiser ne1 ne2 level).
Proof. exact (simple_usable ne1 ne2 level). Qed.
Print Assumptions C29_usable_with_decompose.
Theorem C28_usable_with_decompose (T : Type) (A : Arith T) (M : Mag T) (a b : T) :
  keeps_shape (threshold_denoiser a b).
Proof. exact (threshold_keeps a b). Qed.
Print Assumptions C28_usable_with_decompose.

(** ** C30: "level 1: all values are zero" is false: a largest value of the
    input survives whenever the input is not already zero. *)
Theorem C30_level_1_zeroes_refuted ne1 ne2 :
  nth_element_contract ne1 -> nth_element_contract ne2 ->
  (forall data : list R, (exists x, In x data /\ x <> 0%R) ->
    exists out x, simple1 ne1 1%R data = Ok out /\ In x out /\ x <> 0%R /\ forall y, In y data -> (Rabs y <= Rabs x)%R) /\
  (forall data : mat R, mwf data -> (exists i j x, mget data i j = Ok x /\ x <> 0%R) ->
    exists out i j x, simple2 ne2 1%R data = Ok out /\ mget out i j = Ok x /\ x <> 0%R).
Proof. exact (fun H1 H2 => conj (fun d => level1_survivor1 ne1 d H1) (fun d W => level1_survivor2 ne2 d W H2)). Qed.
Print Assumptions C30_level_1_zeroes_refuted.

(** *** The hypotheses are met *)
Example C29_contract_example : nth_element_contract (@sort_desc nat) /\ nth_element_contract (@sort_desc (nat * nat)).
Proof. exact (conj sort_contract sort_contract). Qed.
(** level 1/2 on [3; -7; 1; 5]: the two largest stay *)
Example C29_example : simple1 sort_desc (1/2)%R [3; -7; 1; 5]%R = Ok [0; -7; 0; 5]%R.
Proof.
  assert (E : mtrunc 4 (1/2)%R = Ok 2).
  { destruct (real_trunc 4 (1/2)) as (d & E & _ & H); [lra|]. rewrite E. f_equal. simpl INR in H.
    destruct H as (H1 & H2). replace ((1 + 1 + 1 + 1) * (1 / 2))%R with (INR 2) in * by (simpl; lra).
    rewrite <- S_INR in H2. apply INR_lt in H2. apply INR_le in H1. lia. }
  unfold simple1, slice_index. cbn [length]. rewrite E. unfold tabulateM. cbn [seq mapM bind rd nth_error].
  cbn [mabs realMag]. rewrite (Rabs_pos_eq 3), (Rabs_left (-7)), (Rabs_pos_eq 1), (Rabs_pos_eq 5) by lra.
  cbn [bind Nat.eqb Nat.sub Nat.min guard Nat.leb]. unfold sort_desc. cbn [fold_right ins fst].
  repeat (match goal with |- context [Rlt_dec ?a ?b] => destruct (Rlt_dec a b); [try (exfalso; lra)|try (exfalso; lra)] end; cbn [ins fst]).
  reflexivity.
Qed.
Example C28_example : exists p (b : buffer Z), @reachable Z Z_arith p b /\ accepted p /\ (1 <= signum p)%Z.
Proof.
  exists (Params [8]%Z 2 1 1). destruct history_example as (b & H & _). exists b. split; auto.
  split; [|simpl; lia].
  unfold accepted, params_rep, legal, u64, i32; cbn [shape signum steps wtype length].
  repeat split; auto; repeat constructor; lia.
Qed.
