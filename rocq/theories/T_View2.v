(** * T_View2: property C108, the channels of a view read and written one by one *)
Require Import List Bool Arith ZArith Lia.
Require Import Verif.M_Base Verif.M_Params Verif.M_Buffer Verif.M_View Verif.M_View2.
Require Import Verif.S_Params Verif.S_Buffer Verif.P_Api2 Verif.P_View2.
Import ListNotations.
Open Scope nat_scope.

(** ** decompositions() of a view lists the buffer's channels start .. start+count-1 *)
Theorem C108_channels (T : Type) (A : Arith T) p v (b : buffer T) :
  accepted p -> reachable p b -> in_range v p -> vmutable v = true ->
  exists s, view_decompositions v b = Ok s /\ Z.of_nat (length s) = vcount v /\
    forall i, i < length s ->
      nth_error s i = nth_error (bdec b) (Z.to_nat (vstart v) + i) /\
      exists ch, view_channel v b i = Ok ch /\ nth_error (bdec b) (Z.to_nat (vstart v) + i) = Some ch.
Proof.
  intros HA HR HV HM. destruct (reachable_weak p b HA HR) as (_ & HL & _).
  destruct (view_dec_ok p v b HV HL HM) as (s & E & L & N). exists s. split; [exact E|]. split; [exact L|].
  intros i Hi. split; [auto|]. unfold view_channel. rewrite E. cbn [bind]. unfold rd. rewrite N by auto.
  destruct (nth_error (bdec b) (Z.to_nat (vstart v) + i)) as [ch|] eqn:Ec; [eauto|].
  apply nth_error_None in Ec. destruct HV as (? & ? & ? & _). lia.
Qed.
Print Assumptions C108_channels.
(** ** writing one changes that channel of the buffer and nothing else *)
Theorem C108_store (T : Type) (A : Arith T) p v (b : buffer T) i ch :
  accepted p -> reachable p b -> in_range v p -> vmutable v = true -> (Z.of_nat i < vcount v)%Z ->
  exists b', view_store v b i ch = Ok b' /\ bpar b' = bpar b /\ length (bdec b') = length (bdec b) /\
    view_channel v b' i = Ok ch /\
    forall j, j <> Z.to_nat (vstart v) + i -> nth_error (bdec b') j = nth_error (bdec b) j.
Proof.
  intros HA HR HV HM Hi. destruct (reachable_weak p b HA HR) as (_ & HL & _). exact (view_store_ok p v b i ch HV HL HM Hi).
Qed.
Print Assumptions C108_store.
(** so a decomposed channel can be moved from one buffer to another: it is
    composed to the same signal there *)
Theorem C108_exchange (T : Type) (A : Arith T) p v (b b2 : buffer T) i j ch sf :
  accepted p -> in_range v p -> vmutable v = true -> (Z.of_nat i < vcount v)%Z ->
  bpar b = p -> Z.of_nat (length (bdec b)) = signum p -> Forall (has_layout p) (bdec b) ->
  bpar b2 = p -> Z.of_nat (length (bdec b2)) = signum p -> Forall (has_layout p) (bdec b2) ->
  nth_error (bdec b2) j = Some ch -> (0 <= sf <= steps p)%Z ->
  exists b' out out2 out', view_store v b i ch = Ok b' /\
    compose b sf = Ok (true, out) /\ compose b2 sf = Ok (true, out2) /\ compose b' sf = Ok (true, out') /\
    length out' = length out /\
    nth_error out' (Z.to_nat (vstart v) + i) = nth_error out2 j /\ nth_error out2 j <> None /\
    forall k, k <> Z.to_nat (vstart v) + i -> nth_error out' k = nth_error out k.
Proof. exact (view_exchange p v b b2 i j ch sf). Qed.
Print Assumptions C108_exchange.
(** ** outside: Blaze refuses a range that ends beyond the buffer with an
    exception; a negative start or count that ends inside is not noticed, nor is
    an index beyond the view *)
Theorem C108_outside (T : Type) (A : Arith T) p v (b : buffer T) :
  accepted p -> reachable p b -> vmutable v = true -> (signum p < 2 ^ 63)%Z ->
  (- 2 ^ 31 <= vstart v < 2 ^ 31)%Z -> (- 2 ^ 31 <= vcount v < 2 ^ 31)%Z ->
  ((vstart v + vcount v < 0 \/ signum p < vstart v + vcount v)%Z ->
    view_decompositions v b = Throw /\ forall i ch, view_channel v b i = Throw /\ view_store v b i ch = Throw) /\
  ((vstart v < 0 \/ vcount v < 0)%Z -> (0 <= vstart v + vcount v <= signum p)%Z -> view_decompositions v b = UB) /\
  (in_range v p -> forall i ch, (vcount v <= Z.of_nat i)%Z -> view_channel v b i = UB /\ view_store v b i ch = UB).
Proof.
  intros HA HR HM HS H1 H2. destruct (reachable_weak p b HA HR) as (_ & HL & _). split; [|split].
  - intros H. assert (E : view_decompositions v b = Throw) by (apply view_dec_out; auto; lia).
    split; [exact E|]. intros i ch. unfold view_channel, view_store. rewrite E. auto.
  - intros Hn Hi. apply view_dec_wrapped; auto; lia.
  - intros HV i ch Hi. destruct (view_store_out p v b i ch HV HL HM Hi). auto.
Qed.
Print Assumptions C108_outside.
Example C108_outside_case : let v := View (-1) 2 true in
  ((vstart v < 0 \/ vcount v < 0) /\ 0 <= vstart v + vcount v <= 3)%Z /\ (3 < vstart (View 2 2 true) + vcount (View 2 2 true))%Z.
Proof. cbn. lia. Qed.
(** ** "a view of a const buffer can be read the same way" is false: it has no
    buffer to refer to *)
Theorem C108_const_refuted (T : Type) (b : buffer T) start count :
  view_decompositions (View start count false) b = UB /\ forall i, view_channel (View start count false) b i = UB.
Proof.
  assert (E : view_decompositions (View start count false) b = UB) by (apply view_dec_const; reflexivity).
  split; [exact E|]. intros i. unfold view_channel. rewrite E. reflexivity.
Qed.
Print Assumptions C108_const_refuted.
(** the last two of three channels *)
Example C108_case : in_range (View 1 2 true) (Params [2]%Z 3 1 1) /\ accepted (Params [2]%Z 3 1 1) /\
  let b := Buffer (Params [2]%Z 3 1 1) [[mcolvec [1]; mcolvec [2]]; [mcolvec [3]; mcolvec [4]]; [mcolvec [5]; mcolvec [6]]] in
  view_decompositions (View 1 2 true) b = Ok [[mcolvec [3]; mcolvec [4]]; [mcolvec [5]; mcolvec [6]]] /\
  view_channel (View 1 2 true) b 1 = Ok [mcolvec [5]; mcolvec [6]] /\
  view_store (View 1 2 true) b 0 [mcolvec [7]; mcolvec [8]] =
    Ok (Buffer (Params [2]%Z 3 1 1) [[mcolvec [1]; mcolvec [2]]; [mcolvec [7]; mcolvec [8]]; [mcolvec [5]; mcolvec [6]]]).
Proof.
  split; [unfold in_range; cbn; lia|]. split; [|cbv zeta; repeat split].
  unfold accepted, params_rep, legal, u64, i32; cbn [shape signum steps wtype length]; repeat split; auto; repeat constructor; lia.
Qed.
(** buffers with laid out channels: decompose anything *)
Example C108_exchange_case (T : Type) (A : Arith T) (x : T) : exists b b' : buffer T,
  new_buffer (Params [2]%Z 3 1 1) = Ok b /\
  decompose b [mcolvec [x; x]; mcolvec [x; x]; mcolvec [x; x]] null_denoiser = Ok (true, b') /\
  Z.of_nat (length (bdec b')) = 3%Z /\ Forall (has_layout (Params [2]%Z 3 1 1)) (bdec b').
Proof.
  destruct C108_case as (_ & HA & _).
  assert (E : exists b : buffer T, new_buffer (Params [2]%Z 3 1 1) = Ok b) by (eexists; reflexivity). destruct E as (b & E).
  destruct (layout_after_decompose (Params [2]%Z 3 1 1) b [mcolvec [x; x]; mcolvec [x; x]; mcolvec [x; x]] null_denoiser HA) as (b' & H1 & H2 & H3);
    [apply reach_new; exact E|split; [reflexivity|intros m s W; repeat split; auto]|cbn; lia|reflexivity|repeat constructor|]. exists b, b'. auto.
Qed.
