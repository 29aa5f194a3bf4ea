(** * T_View: properties C16 .. C19 (any sample type and arithmetic) *)
Require Import List Bool ZArith Lia.
Require Import Verif.M_Base Verif.M_Params Verif.M_Buffer Verif.M_View.
Require Import Verif.S_Params Verif.S_Buffer Verif.P_Api Verif.P_Api2.
Import ListNotations.
Open Scope nat_scope.

(** ** C16: frame, for every buffer, view, data and denoiser *)
Theorem C16_view_frame (T : Type) (A : Arith T) v (b b' : buffer T) data den r :
  view_decompose v b data den = Ok (r, b') ->
  bpar b' = bpar b /\ length (bdec b') = length (bdec b) /\
  forall i, (Z.of_nat i < vstart v \/ vstart v + vcount v <= Z.of_nat i)%Z ->
    nth_error (bdec b') i = nth_error (bdec b) i.
Proof. exact (view_frame v b b' data den r). Qed.
Print Assumptions C16_view_frame.

(** C16: inside, what a stand-alone buffer would hold *)
Theorem C16_view_writes (T : Type) (A : Arith T) p v (b : buffer T) data den :
  accepted p -> reachable p b -> keeps_shape den -> in_range v p -> vmutable v = true ->
  (1 <= vcount v)%Z -> Z.of_nat (length data) = vcount v -> Forall (shaped p) data ->
  exists b' bs bs',
    view_decompose v b data den = Ok (true, b') /\
    @new_buffer T (with_signum p (vcount v)) = Ok bs /\
    decompose bs data den = Ok (true, bs') /\
    length (bdec bs') = Z.to_nat (vcount v) /\
    forall i, i < Z.to_nat (vcount v) ->
      nth_error (bdec b') (Z.to_nat (vstart v) + i) = nth_error (bdec bs') i.
Proof. exact (view_writes p v b data den). Qed.
Print Assumptions C16_view_writes.
Example C16_case : in_range (View 1 2 true) (Params [640; 480]%Z 4 3 2) /\
  accepted (Params [640; 480]%Z 4 3 2).
Proof.
  unfold accepted, in_range, params_rep, legal, u64, i32; cbn [vstart vcount shape signum steps wtype length].
  repeat split; auto; try lia; repeat constructor; lia.
Qed.

(** ** C17: slice of the whole composition *)
Theorem C17_view_compose (T : Type) (A : Arith T) v (b : buffer T) sf r out :
  in_range v (bpar b) -> compose b sf = Ok (r, out) ->
  r = true /\
  view_compose v b sf = Ok (true, Some (firstn (Z.to_nat (vcount v)) (skipn (Z.to_nat (vstart v)) out))).
Proof. exact (view_compose_slice v b sf r out). Qed.
Print Assumptions C17_view_compose.

(** C17, only the view's own channels need to be decomposed *)
Theorem C17_view_compose_own (T : Type) (A : Arith T) p v (b : buffer T) sf :
  accepted p -> bpar b = p -> in_range v p -> Z.of_nat (length (bdec b)) = signum p ->
  (0 <= sf <= steps p)%Z ->
  (forall i ch, (vstart v <= Z.of_nat i < vstart v + vcount v)%Z -> nth_error (bdec b) i = Some ch -> has_layout p ch) ->
  exists out, view_compose v b sf = Ok (true, Some out) /\ Z.of_nat (length out) = vcount v.
Proof. exact (view_compose_ok p v b sf). Qed.
Print Assumptions C17_view_compose_own.

(** ** C18: the cast *)
Theorem C18_cast (T : Type) (A : Arith T) p v (b : buffer T) :
  accepted p -> bpar b = p -> Z.of_nat (length (bdec b)) = signum p -> in_range v p ->
  view_cast v b = Ok (Buffer (with_signum p (vcount v))
                       (firstn (Z.to_nat (vcount v)) (skipn (Z.to_nat (vstart v)) (bdec b)))).
Proof. exact (view_cast_ok p v b). Qed.
Print Assumptions C18_cast.

Theorem C18_cast_compose (T : Type) (A : Arith T) p v (b bc : buffer T) sf :
  accepted p -> bpar b = p -> Z.of_nat (length (bdec b)) = signum p -> in_range v p ->
  view_cast v b = Ok bc ->
  view_compose v b sf = let* r := compose bc sf in Ok (fst r, Some (snd r)).
Proof. exact (cast_compose p v b bc sf). Qed.
Print Assumptions C18_cast_compose.
Example C18_case : view_cast (View 1 1 true) (Buffer (Params [2]%Z 2 1 1) [[mcolvec [1]; mcolvec [2]]; [mcolvec [3]; mcolvec [4]]])
  = Ok (Buffer (Params [2]%Z 1 1 1) [[mcolvec [3]; mcolvec [4]]]).
Proof. vm_compute. reflexivity. Qed.

(** ** C19: out of range *)
Theorem C19_out_of_range (T : Type) (A : Arith T) v (b : buffer T) :
  (- 2 ^ 31 <= vstart v + vcount v < 2 ^ 31)%Z ->
  (0 <= signum (bpar b) < 2 ^ 63)%Z ->
  (signum (bpar b) < vstart v + vcount v \/ vstart v + vcount v < 0)%Z ->
  (forall data den, view_decompose v b data den = Ok (false, b)) /\
  (forall sf, view_compose v b sf = Ok (false, None)).
Proof. exact (view_out_of_range v b). Qed.
Print Assumptions C19_out_of_range.
Example C19_case : (signum (Params [8]%Z 3 1 1) < vstart (View 2 2 true) + vcount (View 2 2 true))%Z.
Proof. reflexivity. Qed.

(** C19, the unchecked cast *)
Theorem C19_cast_unchecked (T : Type) (A : Arith T) p v (b : buffer T) :
  accepted p -> bpar b = p -> Z.of_nat (length (bdec b)) = signum p ->
  (1 <= vcount v < 2 ^ 31)%Z ->
  (vstart v < 0 \/ signum p < vstart v + vcount v)%Z ->
  view_cast v b = UB.
Proof. exact (cast_out_of_range p v b). Qed.
Print Assumptions C19_cast_unchecked.

(** C19, a negative start that passes the range check: Decompose silently
    stores nothing, Compose is undefined behaviour *)
Theorem C19_negative_start (T : Type) (A : Arith T) v (b : buffer T) :
  (vstart v < 0)%Z -> (0 < vcount v)%Z -> (0 <= vstart v + vcount v <= signum (bpar b))%Z ->
  (vstart v + vcount v < 2 ^ 31)%Z ->
  (forall data den r b', view_decompose v b data den = Ok (r, b') -> b' = b) /\
  (forall sf, (0 <= sf)%Z -> view_compose v b sf = UB).
Proof. exact (view_negative_start v b). Qed.
Print Assumptions C19_negative_start.
Example C19_negative_case : (vstart (View (-1) 2 true) < 0 /\ 0 < vcount (View (-1) 2 true) /\
  0 <= vstart (View (-1) 2 true) + vcount (View (-1) 2 true) <= signum (Params [8]%Z 3 1 1))%Z.
Proof. cbn; lia. Qed.
