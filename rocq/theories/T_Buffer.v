(** * T_Buffer: properties C04, C05, C10, C14, C15, C20, C31, C35.
    All hold for every type of samples and every arithmetic. *)
Require Import List Bool ZArith Lia.
Require Import Verif.M_Base Verif.M_Params Verif.M_Buffer Verif.M_View.
Require Import Verif.S_Params Verif.S_Buffer Verif.P_Api Verif.P_Api2.
Import ListNotations.
Open Scope nat_scope.

(** ** C04 and C05: Decompose of a well-shaped signal has the documented
    layout; nothing goes out of range there or in Compose at any scale
    0..steps ([Ok] excludes exceptions and undefined behaviour). *)
Theorem C05_decompose_compose_safe (T : Type) (A : Arith T) p (b : buffer T) data den :
  accepted p -> reachable p b -> keeps_shape den ->
  (1 <= signum p)%Z -> Z.of_nat (length data) = signum p -> Forall (shaped p) data ->
  exists b', decompose b data den = Ok (true, b') /\ bpar b' = p /\
    Z.of_nat (length (bdec b')) = signum p /\ Forall (has_layout p) (bdec b') /\
    forall sf, (0 <= sf <= steps p)%Z ->
      exists out, compose b' sf = Ok (true, out) /\ Z.of_nat (length out) = signum p /\
        Forall (sized (drows p / 2 ^ Z.to_nat sf)
                      (if is_1d p then 1 else dcols p / 2 ^ Z.to_nat sf)) out.
Proof. exact (decompose_compose_safe' p b data den). Qed.
Print Assumptions C05_decompose_compose_safe.

Theorem C04_layout (T : Type) (A : Arith T) p (b : buffer T) data den :
  accepted p -> reachable p b -> keeps_shape den ->
  (1 <= signum p)%Z -> Z.of_nat (length data) = signum p -> Forall (shaped p) data ->
  exists b', decompose b data den = Ok (true, b') /\
    Z.of_nat (length (bdec b')) = signum p /\ Forall (has_layout p) (bdec b').
Proof. exact (layout_after_decompose p b data den). Qed.
Print Assumptions C04_layout.

(** three channels 23 x 17, 2 steps of DB2: accepted, constructible, and a grey image
    has the shape. *)
Definition ex_p : params := Params [23; 17]%Z 3 2 2.
Example ex_accepted : accepted ex_p.
Proof.
  unfold accepted, ex_p, params_rep, legal, u64, i32; cbn [shape signum steps wtype length].
  repeat split; auto; repeat constructor; lia.
Qed.
Example ex_reachable (T : Type) (A : Arith T) : exists b : buffer T, reachable ex_p b.
Proof. eexists. apply reach_new. vm_compute. reflexivity. Qed.
Example ex_shaped (T : Type) (x : T) : Forall (shaped ex_p) (repeat (Mat 17 23 (repeat x (17 * 23))) 3).
Proof.
  repeat constructor; unfold mwf; cbn [rows cols elts]; try reflexivity; apply repeat_length.
Qed.
Example ex_null (T : Type) : keeps_shape (@null_denoiser T).
Proof. split; [reflexivity|]. intros m s W. repeat split; auto. Qed.

(** ** C10: kNone or zero steps store and return the samples themselves. *)
Theorem C10_pass_through (T : Type) (A : Arith T) p (b : buffer T) data den :
  accepted p -> steps p = 0%Z -> reachable p b -> keeps_shape den ->
  (1 <= signum p)%Z -> Z.of_nat (length data) = signum p -> Forall (shaped p) data ->
  exists b', decompose b data den = Ok (true, b') /\ bpar b' = p /\
    bdec b' = map (fun m => [m]) data /\ compose b' 0 = Ok (true, data).
Proof. exact (pass_through p b data den). Qed.
Print Assumptions C10_pass_through.

Theorem C10_none_has_no_steps p : accepted p -> wtype p = 0%Z -> steps p = 0%Z.
Proof. exact (fun HA => P_Impl.acc_none p HA). Qed.
Print Assumptions C10_none_has_no_steps.
Example C10_case : accepted (Params [7; 0]%Z 2 0 0) /\ accepted (Params [5]%Z 1 0 2).
Proof.
  unfold accepted, params_rep, legal, u64, i32; cbn [shape signum steps wtype length].
  repeat split; auto; repeat constructor; lia.
Qed.

(** ** C14: a channel's subbands are those a one-channel buffer would hold. *)
Theorem C14_channels_independent (T : Type) (A : Arith T) p (b b' : buffer T) data den i m :
  accepted p -> reachable p b -> keeps_shape den ->
  (1 <= signum p)%Z -> Z.of_nat (length data) = signum p -> Forall (shaped p) data ->
  decompose b data den = Ok (true, b') -> nth_error data i = Some m ->
  exists b1 b1' ch, @new_buffer T (with_signum p 1) = Ok b1 /\
    decompose b1 [m] den = Ok (true, b1') /\ bdec b1' = [ch] /\ nth_error (bdec b') i = Some ch.
Proof. exact (channels_independent p b b' data den i m). Qed.
Print Assumptions C14_channels_independent.

(** ** C15: a refused Decompose changes nothing; any buffer, any data. *)
Theorem C15_refused_unchanged (T : Type) (A : Arith T) (b b' : buffer T) den :
  (forall data, decompose b data den = Ok (false, b') -> b' = b) /\
  (forall data, decompose1 b data den = Ok (false, b') -> b' = b) /\
  (forall v data, view_decompose v b data den = Ok (false, b') -> b' = b).
Proof. exact (refused_unchanged b b' den). Qed.
Print Assumptions C15_refused_unchanged.
Example C15_case (T : Type) (A : Arith T) (x : T) :
  exists b : buffer T, new_buffer (Params [8]%Z 1 1 1) = Ok b /\
    decompose b [mcolvec [x; x; x]] null_denoiser = Ok (false, b) /\
    decompose1 b [x; x; x] null_denoiser = Ok (false, b).
Proof. eexists. repeat split; vm_compute; reflexivity. Qed.

(** ** C20: any history of calls keeps the buffer's structure. *)
Theorem C20_history (T : Type) (A : Arith T) p (b : buffer T) :
  accepted p -> Forall (fun n => (1 <= n)%Z) (shape p) -> reachable p b ->
  bpar b = p /\ Z.of_nat (length (bdec b)) = signum p /\
  forall ch, In ch (bdec b) -> untouched p ch \/ has_layout p ch.
Proof. exact (reachable_inv p b). Qed.
Print Assumptions C20_history.

(** a history in which one channel of two is decomposed through a view *)
Example C20_case : exists b : buffer Z, @reachable Z Z_arith (Params [8]%Z 2 1 1) b /\
  exists ch0 ch1, bdec b = [ch0; ch1] /\ untouched (Params [8]%Z 2 1 1) ch0 /\
    has_layout (Params [8]%Z 2 1 1) ch1.
Proof. exact history_example. Qed.

(** ** C31: what any denoiser does: details replaced one by one,
    approximation untouched. *)
Theorem C31_denoiser (T : Type) (A : Arith T) p (b b1 : buffer T) data den :
  accepted p -> reachable p b ->
  (1 <= signum p)%Z -> Z.of_nat (length data) = signum p -> Forall (shaped p) data ->
  decompose b data den = Ok (true, b1) ->
  exists b0, decompose b data null_denoiser = Ok (true, b0) /\ length (bdec b1) = length (bdec b0) /\
  forall c ch1 ch0, nth_error (bdec b1) c = Some ch1 -> nth_error (bdec b0) c = Some ch0 ->
    length ch1 = length ch0 /\
    (exists a, nth_error ch1 (nsteps p * bands p) = Some a /\ nth_error ch0 (nsteps p * bands p) = Some a) /\
    forall s i, s < nsteps p -> i < bands p -> exists d,
      nth_error ch0 (s * bands p + i) = Some d /\
      nth_error ch1 (s * bands p + i) = Some (denoised p den s d).
Proof. exact (denoiser_effect p b b1 data den). Qed.
Print Assumptions C31_denoiser.

(** ** C35: IsEmpty *)
Theorem C35_is_empty (T : Type) (A : Arith T) :
  (forall b : buffer T, is_empty b = true <-> no_elements b) /\
  (forall p (b : buffer T), new_buffer p = Ok b -> is_empty b = true) /\
  (forall p (b b' : buffer T) data den,
     accepted p -> Forall (fun n => (1 <= n)%Z) (shape p) -> reachable p b -> keeps_shape den ->
     Forall mwf data -> (1 <= signum p)%Z ->
     decompose b data den = Ok (true, b') -> is_empty b' = false).
Proof. exact empty_facts. Qed.
Print Assumptions C35_is_empty.
