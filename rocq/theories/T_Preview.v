(** * T_Preview: property C99, composing at a reduced size. *)
Require Import List Bool Arith ZArith QArith Qreals Reals Lra Lia.
Require Import Flocq.Core.Core Flocq.IEEE754.BinarySingleNaN.
Require Import Verif.M_Base Verif.M_Params Verif.M_Buffer Verif.M_Real Verif.M_Float Verif.M_Binary32.
Require Import Verif.S_Params Verif.S_Buffer Verif.S_Exact Verif.S_Round Verif.S_Stable Verif.S_Preview.
Require Import Verif.P_Api Verif.P_Float Verif.P_Rel Verif.P_Round2 Verif.P_Round3 Verif.P_Stable2 Verif.P_Binary32 Verif.P_Bin2 Verif.P_Preview Verif.P_Preview2 Verif.P_Preview3.
Import ListNotations.
Open Scope R_scope.

Local Ltac consts :=
  replace (/ 2 ^ 24) with u32 by (unfold u32; rewrite (pow_IZR 2 24); reflexivity);
  replace (/ 2 ^ 150) with eta32 by (unfold eta32; rewrite (pow_IZR 2 150); reflexivity).

(** ** the buffer the picture is compared with exists *)
Theorem C99_coarse_accepted p k : accepted p -> Forall (fun n => n <= 2 ^ 62)%Z (shape p) -> (k <= nsteps p)%nat ->
  accepted (coarse p k).
Proof. exact (coarse_accepted p k). Qed.
Print Assumptions C99_coarse_accepted.

(** ** any arithmetic with bounded rounding errors *)
Theorem C99_any_rounding u eta d e (A : Arith R) p k (b be : buffer R) data :
  rounding u eta A -> 0 <= u -> 0 <= eta -> 0 <= d -> 0 <= e -> divides d e A p k ->
  accepted p -> (k <= nsteps p)%nat -> accepted (coarse p k) ->
  @reachable R A p b -> @reachable R exactR (coarse p k) be ->
  (1 <= signum p)%Z -> Z.of_nat (length data) = signum p -> Forall (shaped p) data ->
  exists b' out be', @decompose R A b data null_denoiser = Ok (true, b') /\
    @compose R A b' (Z.of_nat k) = Ok (true, out) /\ length out = length data /\
    @decompose R exactR be (map (padded_signal p) data) null_denoiser = Ok (true, be') /\
    forall c m o ch, nth_error data c = Some m -> nth_error out c = Some o -> nth_error (bdec be') c = Some ch ->
      exists a, nth_error ch (k * bands p) = Some a /\
        sized (level_rows p k) (level_cols p k) a /\
        sized (small_rows p k) (small_cols p k) o /\
        preview_error p k o a <= preview_bound u eta d e p k (sqrt (padded_energy p m)).
Proof.
  intros HR Hu He Hd He' HD HA Hk. exact (preview_ok u eta d e A HR Hu He Hd He' p HA k Hk b be data (fun _ => HD)).
Qed.
Print Assumptions C99_any_rounding.

(** ** exact arithmetic: every wavelet *)
Theorem C99_exact p k (b be : buffer R) data :
  accepted p -> (k <= nsteps p)%nat -> accepted (coarse p k) ->
  @reachable R exactR p b -> @reachable R exactR (coarse p k) be ->
  (1 <= signum p)%Z -> Z.of_nat (length data) = signum p -> Forall (shaped p) data ->
  exists b' out be', @decompose R exactR b data null_denoiser = Ok (true, b') /\
    @compose R exactR b' (Z.of_nat k) = Ok (true, out) /\ length out = length data /\
    @decompose R exactR be (map (padded_signal p) data) null_denoiser = Ok (true, be') /\
    forall c m o ch, nth_error data c = Some m -> nth_error out c = Some o -> nth_error (bdec be') c = Some ch ->
      exists a, nth_error ch (k * bands p) = Some a /\
        sized (level_rows p k) (level_cols p k) a /\
        sized (small_rows p k) (small_cols p k) o /\
        preview_error p k o a <=
          ((1 + Q2R (filter_defect (wtype p))) ^ (passes p * (2 * nsteps p - k)) -
           (1 + Q2R (filter_defect (wtype p))) ^ (passes p * k)) * sqrt (padded_energy p m) / factor p k /\
        (wtype p = 1%Z -> forall i j, (i < small_rows p k)%nat -> (j < small_cols p k)%nat ->
           at_ o i j = at_ a (small_row p k i) (small_col p k j) / factor p k).
Proof.
  intros HA Hk HQ Hr Hre Hs HL HS.
  destruct (C99_any_rounding 0 0 0 0 exactR p k b be data exact_rounding (Rle_refl 0) (Rle_refl 0) (Rle_refl 0) (Rle_refl 0)
    (exact_divides p k HA) HA Hk HQ Hr Hre Hs HL HS) as (b' & out & be' & H1 & H2 & H3 & H4 & H5).
  exists b', out, be'. split; auto. split; auto. split; auto. split; auto.
  intros c m o ch Hm Ho Hch. destruct (H5 c m o ch Hm Ho Hch) as (a & A1 & A2 & A3 & A4).
  exists a. split; auto. split; auto. split; auto. split.
  - eapply Rle_trans; [exact A4|]. unfold preview_bound. rewrite underflow_0, step_gain_0.
    apply Req_le. unfold Rdiv. ring.
  - intros Ht. rewrite preview_exact_db1 in A4 by auto. apply preview_error_0.
    apply Rle_antisym; auto. apply preview_error_pos.
Qed.
Print Assumptions C99_exact.

(** ** floats, with any sufficiently accurate division by the factor *)
Theorem C99_binary32 (sc : nat -> nat -> f32 -> f32) p k (b : buffer f32) (be : buffer R) data :
  divides32 sc p k ->
  accepted p -> (k <= nsteps p)%nat -> accepted (coarse p k) ->
  @reachable f32 (with_division sc) p b -> @reachable R exactR (coarse p k) be ->
  (1 <= signum p)%Z -> Z.of_nat (length data) = signum p -> Forall (shaped p) data ->
  Forall all_finite data -> Forall (fun m => padded_energy p (values m) <= 2 ^ 220) data ->
  exists b' out be', @decompose f32 (with_division sc) b data null_denoiser = Ok (true, b') /\
    @compose f32 (with_division sc) b' (Z.of_nat k) = Ok (true, out) /\ length out = length data /\
    @decompose R exactR be (map (fun m => padded_signal p (values m)) data) null_denoiser = Ok (true, be') /\
    forall c m o ch, nth_error data c = Some m -> nth_error out c = Some o -> nth_error (bdec be') c = Some ch ->
      exists a, nth_error ch (k * bands p) = Some a /\
        sized (level_rows p k) (level_cols p k) a /\
        sized (small_rows p k) (small_cols p k) o /\ all_finite o /\
        preview_error p k (values o) a <=
          (INR (passes p * nsteps p) * (75 / 10 ^ 7) + / 10 ^ 6) * sqrt (padded_energy p (values m)) / factor p k
          + INR (nsteps p + 1) / 2 ^ 73.
Proof.
  intros HD HA Hk HQ Hr Hre Hs HL HS HF HE.
  destruct (preview_binary32 sc p HA k Hk (fun _ => HD) b be data HQ Hr Hre Hs HL HS HF HE) as (b' & out & be' & H1 & H2 & H3 & H4 & H5).
  exists b', out, be'. split; auto. split; auto. split; auto. split; auto.
  intros c m o ch Hm Ho Hch. destruct (H5 c m o ch Hm Ho Hch) as (a & A1 & A2 & A3 & A4 & A5).
  exists a. split; auto. split; auto. split; auto. split; auto.
  eapply Rle_trans; [exact A5|]. apply preview_bound_small; auto. apply sqrt_pos.
Qed.
Print Assumptions C99_binary32.

(** the division of the model is one *)
Theorem C99_division p k : accepted p -> (k <= nsteps p)%nat -> divides32 f32_scale p k.
Proof. exact (scale_divides32 p k). Qed.
Print Assumptions C99_division.

(** ** DB1 with floats: means of the padded samples *)
Theorem C99_binary32_means (sc : nat -> nat -> f32 -> f32) p k (b : buffer f32) data :
  wtype p = 1%Z -> divides32 sc p k ->
  accepted p -> Forall (fun n => n <= 2 ^ 62)%Z (shape p) -> (k <= nsteps p)%nat ->
  @reachable f32 (with_division sc) p b ->
  (1 <= signum p)%Z -> Z.of_nat (length data) = signum p -> Forall (shaped p) data ->
  Forall all_finite data -> Forall (fun m => padded_energy p (values m) <= 2 ^ 220) data ->
  exists b' out, @decompose f32 (with_division sc) b data null_denoiser = Ok (true, b') /\
    @compose f32 (with_division sc) b' (Z.of_nat k) = Ok (true, out) /\ length out = length data /\
    forall c m o, nth_error data c = Some m -> nth_error out c = Some o ->
        sized (small_rows p k) (small_cols p k) o /\ all_finite o /\
        sqrt (total (small_rows p k) (fun i => total (small_cols p k) (fun j =>
          (at_ (values o) i j - block_mean p (values m) k (small_row p k i) (small_col p k j)) *
          (at_ (values o) i j - block_mean p (values m) k (small_row p k i) (small_col p k j))))) <=
          (INR (passes p * nsteps p) * (75 / 10 ^ 7) + / 10 ^ 6) * sqrt (padded_energy p (values m)) / factor p k
          + INR (nsteps p + 1) / 2 ^ 73.
Proof. exact (means_binary32 sc p k b data). Qed.
Print Assumptions C99_binary32_means.

(** ** the hypotheses are met: a 7 x 5 picture, DB1, two steps *)
Definition exp1 := Params [7; 5]%Z 1 2 1.
Definition exp_ints (l : list nat) : list f32 := map (fun k => f32_of_int (Z.of_nat k)) l.
Definition exp_signal : mat f32 := Mat 5 7 (exp_ints (seq 0 35)).
Example exp_accepted : accepted exp1 /\ Forall (fun n => n <= 2 ^ 62)%Z (shape exp1) /\ (1 <= nsteps exp1)%nat /\ accepted (coarse exp1 1).
Proof.
  assert (HA : accepted exp1).
  { unfold accepted, exp1, params_rep, legal, u64, i32; cbn [shape signum steps wtype length].
    repeat split; auto; repeat constructor; lia. }
  assert (H62 : Forall (fun n => n <= 2 ^ 62)%Z (shape exp1)) by (repeat constructor; lia).
  assert (H1 : (1 <= nsteps exp1)%nat) by (cbv; lia).
  split; auto. split; auto. split; auto. apply C99_coarse_accepted; auto.
Qed.
(** it is padded to 8 x 8 and reduced to 3 x 2, cut out of 4 x 4 *)
Example exp_sizes : level_rows exp1 0 = 8%nat /\ level_cols exp1 0 = 8%nat /\
  small_rows exp1 1 = 2%nat /\ small_cols exp1 1 = 3%nat /\ small_row exp1 1 0 = 1%nat /\ small_col exp1 1 0 = 0%nat /\
  coarse exp1 1 = Params [8; 8]%Z 1 1 1.
Proof. repeat split. Qed.
Example exp_reachable : (exists b : buffer f32, @reachable f32 (with_division f32_scale) exp1 b) /\
  (exists b : buffer R, @reachable R exactR exp1 b) /\ (exists b : buffer R, @reachable R exactR (coarse exp1 1) b).
Proof.
  split; [|split]; eexists; apply reach_new.
  - vm_compute. reflexivity.
  - cbv -[Rplus Rmult Ropp Rinv sqrt IZR Q2R Rdiv Rminus]. reflexivity.
  - cbv -[Rplus Rmult Ropp Rinv sqrt IZR Q2R Rdiv Rminus]. reflexivity.
Qed.
Example exp_divides : divides32 f32_scale exp1 1.
Proof. apply C99_division; apply exp_accepted. Qed.
Lemma exp_ints_ok l : Forall (fun k => (k <= 256)%nat) l ->
  Forall (fun x : f32 => is_finite x = true) (exp_ints l) /\ map (@B2R 24 128) (exp_ints l) = map INR l.
Proof.
  induction 1 as [|k l H _ [F V]]; [split; [constructor|reflexivity]|].
  destruct (val_int (Z.of_nat k) ltac:(lia)) as [E Fk]. split.
  - constructor; auto.
  - change (B2R (f32_of_int (Z.of_nat k)) :: map (@B2R 24 128) (exp_ints l) = INR k :: map INR l). rewrite E, V, <- INR_IZR_INZ. reflexivity.
Qed.
Example exp_data : shaped exp1 exp_signal /\ all_finite exp_signal /\ padded_energy exp1 (values exp_signal) <= 2 ^ 220.
Proof.
  destruct (exp_ints_ok (seq 0 35)) as [F V].
  { apply Forall_forall. intros k Hk. apply in_seq in Hk. lia. }
  split; [repeat split|]. split; [exact F|].
  eapply Rle_trans; [|apply (Rle_pow 2 20 220); [lra|lia]].
  unfold values, exp_signal. cbn [rows cols elts]. rewrite V.
  unfold padded_energy. change (level_rows exp1 0) with 8%nat. change (level_cols exp1 0) with 8%nat.
  cbn -[INR pow]. simpl. lra.
Qed.
(** one of them: the mean of 9, 10, 16 and 17 *)
Example exp_mean : block_mean exp1 (values exp_signal) 1 (small_row exp1 1 0) (small_col exp1 1 1) = 13.
Proof.
  destruct (exp_ints_ok (seq 0 35)) as [F V].
  { apply Forall_forall. intros k Hk. apply in_seq in Hk. lia. }
  unfold values, exp_signal. cbn [rows cols elts]. rewrite V.
  unfold block_mean. change (level_rows exp1 0) with 8%nat. change (level_cols exp1 0) with 8%nat.
  cbn -[INR]. simpl. lra.
Qed.
