(** * T_Params: properties C01, C02, C03, C36 *)
Require Import List ZArith Lia.
Require Import Verif.M_Base Verif.M_Params Verif.M_Buffer Verif.S_Params Verif.P_Params.
Import ListNotations.
Open Scope Z_scope.

(** C01: the constructor throws exactly on illegal parameters and otherwise
    yields an empty buffer of the requested geometry. *)
Theorem C01_constructor (T : Type) (p : params) :
  params_rep p -> 0 <= wtype p < 2 ^ 30 ->
  (legal p ->
     exists b : buffer T, new_buffer p = Ok b /\ bpar b = p /\
       Z.of_nat (length (bdec b)) = signum p /\
       forall ch, In ch (bdec b) ->
         length ch = subband_count p /\
         forall sb, In sb ch -> rows sb = 0%nat /\ cols sb = 0%nat /\ elts sb = []) /\
  (~ legal p -> @new_buffer T p = Throw).
Proof. exact (constructor_correct T p). Qed.
Print Assumptions C01_constructor.

(** 2D, 3 channels, 640 x 480, 4 steps of DB3: legal; one step of DB3 more
    than the shorter side allows: not. *)
Example C01_legal : legal (Params [640; 480] 3 4 3) /\ params_rep (Params [640; 480] 3 4 3).
Proof. unfold legal, params_rep, u64, i32; simpl. repeat split; auto; repeat constructor; lia. Qed.
Example C01_illegal : ~ legal (Params [640; 480] 3 7 3).
Proof. unfold legal; simpl. intros (_ & _ & H). inversion H as [|? ? _ H2]. inversion H2; lia. Qed.

(** C01, remaining values of the enum's underlying int: negative types are
    never accepted (2*type wraps to a huge unsigned minimum size). *)
Theorem C01_negative_type (T : Type) (p : params) :
  params_rep p -> - 2 ^ 30 <= wtype p < 0 -> Forall (fun n => n < 2 ^ 63) (shape p) -> @new_buffer T p = Throw.
Proof. exact (new_buffer_negative p). Qed.
Print Assumptions C01_negative_type.

(** C02 with exact arithmetic (T_Log2 has the computation in doubles): the
    accepted step counts for side n and wavelet t are exactly those
    up to the greatest k with 2^k (2t-1) <= n. *)
Theorem C02_exact_arithmetic (T : Type) t n num :
  1 <= t < 2 ^ 30 -> 2 * t <= n < 2 ^ 64 -> 0 <= num < 2 ^ 64 ->
  exists k, 0 <= k < 64 /\ 2 ^ k * (2 * t - 1) <= n /\
    (forall k', 0 <= k' -> 2 ^ k' * (2 * t - 1) <= n -> k' <= k) /\
    forall s, 0 <= s < 2 ^ 64 ->
      (s <= k <-> exists b : buffer T, new_buffer (Params [n] num s t) = Ok b) /\
      (k < s <-> @new_buffer T (Params [n] num s t) = Throw).
Proof. exact (max_steps_correct T t n num). Qed.
Print Assumptions C02_exact_arithmetic.
Example C02_exact_case : 1 <= 4 < 2 ^ 30 /\ 2 * 4 <= 1000 < 2 ^ 64 /\ 2 ^ 7 * (2 * 4 - 1) <= 1000 < 2 ^ 8 * (2 * 4 - 1).
Proof. lia. Qed.

(** C03: padded sides *)
Theorem C03_padded t sh k :
  0 <= k -> 1 <= t -> Forall (fun n => 2 ^ k * (2 * t - 1) <= n) sh ->
  Forall (fun n => 1 <= n /\ n + 2 ^ k <= 2 ^ 64) sh -> sh <> [] ->
  exists l, calc_padded t sh k = Ok l /\
    Forall2 (fun n m => least_multiple (2 ^ k) n m /\ m < n + 2 ^ k) sh l.
Proof. exact (calc_padded_correct t sh k). Qed.
Print Assumptions C03_padded.
Example C03_case : calc_padded 2 [1001; 999] 3 = Ok [1008; 1000] /\
  Forall (fun n => 2 ^ 3 * (2 * 2 - 1) <= n) [1001; 999] /\
  Forall (fun n => 1 <= n /\ n + 2 ^ 3 <= 2 ^ 64) [1001; 999].
Proof. split; [vm_compute; reflexivity|]. split; repeat constructor; lia. Qed.

(** C36: strict total order consistent with equality *)
Theorem C36_order :
  (forall a, params_ltb a a = false) /\
  (forall a b c, params_ltb a b = true -> params_ltb b c = true -> params_ltb a c = true) /\
  (forall a b, params_ltb a b = true -> params_ltb b a = false) /\
  (forall a b, a <> b -> params_ltb a b = true \/ params_ltb b a = true) /\
  (forall a b, params_eqb a b = true <-> a = b) /\
  (forall a b, params_eqb a b = true <-> (params_ltb a b = false /\ params_ltb b a = false)) /\
  (forall a b, params_neqb a b = negb (params_eqb a b)) /\
  (forall a b, params_gtb a b = params_ltb b a) /\
  (forall a b, params_leb a b = orb (params_ltb a b) (params_eqb a b)) /\
  (forall a b, params_geb a b = orb (params_ltb b a) (params_eqb a b)).
Proof. exact params_order. Qed.
Print Assumptions C36_order.
Example C36_case : params_ltb (Params [4; 5] 1 2 3) (Params [4; 6] 0 0 0) = true /\
  params_ltb (Params [4; 6] 1 2 3) (Params [4; 6] 1 2 4) = true.
Proof. split; reflexivity. Qed.
