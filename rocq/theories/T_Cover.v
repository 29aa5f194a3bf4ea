(** * T_Cover: property C128, which samples a coefficient depends on and which
    samples a changed coefficient changes, bit for bit in any arithmetic. *)
Require Import List Bool Arith ZArith Lia.
Require Import Flocq.IEEE754.BinarySingleNaN.
Require Import Verif.M_Base Verif.M_Params Verif.M_Buffer Verif.M_Denoise Verif.M_Float Verif.M_Binary32 Verif.M_Mag32.
Require Import Verif.S_Params Verif.S_Buffer Verif.S_Local Verif.S_Preview Verif.S_Cover.
Require Import Verif.P_Params Verif.P_Cover2.
Import ListNotations.
Open Scope nat_scope.

(** ** Decompose: two signals that agree where the coefficient spans them give
    the same coefficient, whatever the arithmetic and whatever the buffers held *)
Theorem C128_decompose (T : Type) (A : Arith T) p (b b2 : buffer T) data data2 den :
  accepted p -> reachable p b -> reachable p b2 -> pointwise den -> (1 <= signum p)%Z ->
  Z.of_nat (length data) = signum p -> Forall (shaped p) data -> Z.of_nat (length data2) = signum p -> Forall (shaped p) data2 ->
  exists b' b2', decompose b data den = Ok (true, b') /\ decompose b2 data2 den = Ok (true, b2') /\
    length (bdec b') = length data /\ length (bdec b2') = length data2 /\
    forall c c2 m m2 ch ch2 q x x2,
      nth_error data c = Some m -> nth_error data2 c2 = Some m2 ->
      nth_error (bdec b') c = Some ch -> nth_error (bdec b2') c2 = Some ch2 ->
      nth_error ch q = Some x -> nth_error ch2 q = Some x2 ->
      forall i j, i < rows x -> j < cols x ->
        (forall r v, r < level_rows p 0 -> v < level_cols p 0 -> spans p 0 q i j r v -> padded_elem p m r v = padded_elem p m2 r v) ->
        elem x i j = elem x2 i j /\ exists y, elem x i j = Some y.
Proof. exact (fun HA => decompose_spans p HA b b2 data data2 den). Qed.
Print Assumptions C128_decompose.
(** without denoiser and with thresholds *)
Theorem C128_pointwise (T : Type) (A : Arith T) (M : Mag T) (ta tb : T) :
  pointwise (@null_denoiser T) /\ pointwise (threshold_denoiser ta tb).
Proof. split; [apply null_pointwise|apply threshold_pointwise]. Qed.
Print Assumptions C128_pointwise.

(** ** Compose, at every scale factor: two buffers whose coefficients of the
    steps from [k] on agree where they span the sample give the same sample *)
Theorem C128_compose (T : Type) (A : Arith T) p (chs chs2 : list (list (mat T))) k :
  accepted p -> k <= nsteps p ->
  Z.of_nat (length chs) = signum p -> Z.of_nat (length chs2) = signum p ->
  Forall (has_layout p) chs -> Forall (has_layout p) chs2 ->
  exists out out2, compose (Buffer p chs) (Z.of_nat k) = Ok (true, out) /\ compose (Buffer p chs2) (Z.of_nat k) = Ok (true, out2) /\
    length out = length chs /\ length out2 = length chs2 /\
    forall c c2 ch ch2 o o2, nth_error chs c = Some ch -> nth_error chs2 c2 = Some ch2 ->
      nth_error out c = Some o -> nth_error out2 c2 = Some o2 ->
      sized (small_rows p k) (small_cols p k) o /\ sized (small_rows p k) (small_cols p k) o2 /\
      forall i j, i < small_rows p k -> j < small_cols p k ->
        (forall q x x2, k * bands p <= q -> nth_error ch q = Some x -> nth_error ch2 q = Some x2 ->
           forall r v, r < rows x -> v < cols x -> spans p k q r v (small_row p k i) (small_col p k j) -> elem x r v = elem x2 r v) ->
        elem o i j = elem o2 i j.
Proof. exact (fun HA => compose_spans p HA chs chs2 k). Qed.
Print Assumptions C128_compose.

(** ** one coefficient edited, to whatever value, NaN included: only the samples
    of that channel it spans change; none if its step is left out *)
Theorem C128_edit (T : Type) (A : Arith T) p (chs chs2 : list (list (mat T))) k c0 q0 r0 v0 :
  accepted p -> k <= nsteps p ->
  Z.of_nat (length chs) = signum p -> length chs2 = length chs ->
  Forall (has_layout p) chs -> Forall (has_layout p) chs2 ->
  (forall c ch ch2 q x x2 r v, nth_error chs c = Some ch -> nth_error chs2 c = Some ch2 ->
     nth_error ch q = Some x -> nth_error ch2 q = Some x2 -> ~ (c = c0 /\ q = q0 /\ r = r0 /\ v = v0) -> r < rows x -> v < cols x ->
     elem x r v = elem x2 r v) ->
  exists out out2, compose (Buffer p chs) (Z.of_nat k) = Ok (true, out) /\ compose (Buffer p chs2) (Z.of_nat k) = Ok (true, out2) /\
    length out = length chs /\ length out2 = length chs /\
    forall c o o2, nth_error out c = Some o -> nth_error out2 c = Some o2 ->
      sized (small_rows p k) (small_cols p k) o /\ sized (small_rows p k) (small_cols p k) o2 /\
      forall i j, i < small_rows p k -> j < small_cols p k ->
        ~ (c = c0 /\ k * bands p <= q0 /\ spans p k q0 r0 v0 (small_row p k i) (small_col p k j)) ->
        elem o i j = elem o2 i j.
Proof. exact (fun HA => edit_spans p HA chs chs2 k c0 q0 r0 v0). Qed.
Print Assumptions C128_edit.

(** ** how many samples that are: 2^d along each side for DB1 *)
Theorem C128_support p d : wtype p = 1%Z -> support p d = 2 ^ d.
Proof. intros H. unfold support. rewrite H. change (2 * Z.to_nat 1 - 1) with 1. pose proof (Nat.pow_nonzero 2 d ltac:(lia)). lia. Qed.
Print Assumptions C128_support.

(** 16 samples, 2 steps of DB1: a NaN in sample 9 leaves coefficient 1 of the
    second step, made of samples 4 to 7, alone *)
Definition p16 : params := Params [16]%Z 1 2 1.
Definition clean : mat f32 := Mat 16 1 (repeat (f32_of_int 3) 16).
Definition spoilt : mat f32 := Mat 16 1 (repeat (f32_of_int 3) 9 ++ B754_nan :: repeat (f32_of_int 3) 6).
Example C128_case : accepted p16 /\ (exists b : buffer f32, reachable p16 b) /\
  Forall (shaped p16) [clean] /\ Forall (shaped p16) [spoilt] /\
  (forall r v, r < level_rows p16 0 -> v < level_cols p16 0 -> spans p16 0 1 1 0 r v -> padded_elem p16 clean r v = padded_elem p16 spoilt r v) /\
  padded_elem p16 clean 9 0 <> padded_elem p16 spoilt 9 0 /\
  spans p16 0 1 1 0 7 0 /\ ~ spans p16 0 1 1 0 8 0.
Proof.
  assert (HA : accepted p16) by (unfold accepted, p16, params_rep, legal, u64, i32; cbn [shape signum steps wtype length]; repeat split; auto; repeat constructor; lia).
  split; auto. split; [eexists; apply reach_new; apply new_buffer_legal; [apply HA|cbn; lia|apply HA]|].
  split; [repeat constructor|]. split; [repeat constructor|].
  assert (SP : forall r v, r < 16 -> spans p16 0 1 1 0 r v -> 4 <= r < 8).
  { intros r v Hr ((z & Hz & E) & _). change (depth p16 1 - 0) with 2 in Hz. change (support p16 2) with 4 in Hz.
    change (level_rows p16 0) with 16 in E. cbn in Hz. rewrite Nat.mod_small in E by lia. lia. }
  split; [|split; [intros H; apply (f_equal (fun o => match o with Some x => is_nan x | None => true end)) in H; vm_compute in H; discriminate|]].
  - intros r v Hr Hv H. change (level_rows p16 0) with 16 in Hr. change (level_cols p16 0) with 1 in Hv.
    pose proof (SP r v Hr H). assert (v = 0) by lia. subst v.
    assert (D : r = 4 \/ r = 5 \/ r = 6 \/ r = 7) by lia. destruct D as [->|[->|[->| ->]]]; reflexivity.
  - split.
    + split; [exists 7|exists 0]; (split; [vm_compute; lia|reflexivity]).
    + intros H. specialize (SP 8 0 ltac:(lia) H). lia.
Qed.
(** an approximation coefficient edited in a 8 x 8 picture of 2 channels *)
Definition p88 : params := Params [8; 8]%Z 2 1 1.
Definition band (x : f32) : mat f32 := Mat 4 4 (x :: repeat (f32_of_int 3) 15).
Definition chan (x : f32) : list (mat f32) := [band (f32_of_int 3); band (f32_of_int 3); band (f32_of_int 3); band x].
Example C128_edit_case : accepted p88 /\
  Forall (has_layout p88) [chan (f32_of_int 3); chan (f32_of_int 3)] /\ Forall (has_layout p88) [chan (f32_of_int 3); chan B754_nan] /\
  (forall c ch ch2 q x x2 r v, nth_error [chan (f32_of_int 3); chan (f32_of_int 3)] c = Some ch ->
     nth_error [chan (f32_of_int 3); chan B754_nan] c = Some ch2 ->
     nth_error ch q = Some x -> nth_error ch2 q = Some x2 -> ~ (c = 1 /\ q = 3 /\ r = 0 /\ v = 0) -> r < rows x -> v < cols x ->
     elem x r v = elem x2 r v) /\
  spans p88 0 3 0 0 1 1 /\ ~ spans p88 0 3 0 0 2 1.
Proof.
  assert (HA : accepted p88) by (unfold accepted, p88, params_rep, legal, u64, i32; cbn [shape signum steps wtype length]; repeat split; auto; repeat constructor; lia).
  split; auto.
  assert (LL : forall x, has_layout p88 (chan x)).
  { intros x. split; [reflexivity|]. split.
    - intros s i m Hs Hi E. change (nsteps p88) with 1 in Hs. change (bands p88) with 3 in *. assert (s = 0) by lia. subst s.
      destruct i as [|[|[|i]]]; [..|lia]; cbn in E; injection E as <-; repeat split.
    - intros m E. change (nsteps p88 * bands p88) with 3 in E. cbn in E. injection E as <-. repeat split. }
  split; [auto|]. split; [auto|]. split.
  - intros c ch ch2 q x x2 r v E1 E2 E3 E4 N Hr Hv. destruct c as [|[|c]]; [| |destruct c; discriminate E1]; cbn in E1, E2; injection E1 as <-; injection E2 as <-.
    + destruct q as [|[|[|[|q]]]]; [..|destruct q; discriminate E3]; cbn in E3, E4; injection E3 as <-; injection E4 as <-; reflexivity.
    + destruct q as [|[|[|[|q]]]]; [..|destruct q; discriminate E3]; cbn in E3, E4; injection E3 as <-; injection E4 as <-; try reflexivity.
      unfold elem, band; cbn [elts cols]. destruct (Nat.eq_dec (r * 4 + v) 0) as [E|E]; [exfalso; apply N; repeat split; lia|].
      destruct (r * 4 + v); [lia|]. reflexivity.
  - split.
    + split; exists 1; (split; [vm_compute; lia|reflexivity]).
    + intros [(z & Hz & E) _]. change (depth p88 3 - 0) with 1 in Hz. change (support p88 1) with 2 in Hz. change (level_rows p88 0) with 8 in E.
      cbn in Hz. rewrite Nat.mod_small in E by lia. lia.
Qed.
