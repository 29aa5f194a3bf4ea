(** * P_More2: C40 at API level and the 2 x 2 case of C41. *)
Require Import List Bool Arith ZArith QArith Lia Reals Lra.
Require Import Verif.M_Base Verif.M_Params Verif.M_Padding Verif.M_Wavelet Verif.M_Buffer Verif.M_Real.
Require Import Verif.S_Params Verif.S_Buffer.
Require Import Verif.P_Base Verif.P_Wavelet Verif.P_Impl Verif.P_Api2 Verif.P_Exact.
Require Import Verif.P_Paths Verif.P_More.
Import ListNotations.
Open Scope nat_scope.

Lemma Forall2_nth {X Y} (P : X -> Y -> Prop) l l' : Forall2 P l l' ->
  length l = length l' /\ forall i x y, nth_error l i = Some x -> nth_error l' i = Some y -> P x y.
Proof.
  induction 1 as [|x y l l' H HF (IL & IH)]; [split; auto; intros [|i] ? ?; discriminate|].
  split; [simpl; auto|]. intros [|i] a b Ha Hb; simpl in *; [congruence|eauto].
Qed.

Section M.
Context {T : Type} {A : Arith T}.
Variables p q : params.
Variables bp bq bp' bq' : buffer T.
Variable data : list (mat T).
Variable den : denoiser T.
Variable dec : list (list (mat T)).
Let grow sub ch := length sub = nsteps p * bands p + 1 /\ @firstn (mat T) (length ch) sub = ch.

Lemma incremental_gen :
  accepted p -> accepted q ->
  shape q = shape p -> wtype q = wtype p -> signum q = signum p -> (steps q <= steps p)%Z ->
  level_rows q 0 = level_rows p 0 -> level_cols q 0 = level_cols p 0 ->
  (1 <= signum p)%Z -> Z.of_nat (length data) = signum p -> Forall (shaped p) data -> keeps_shape den ->
  reachable q bq -> reachable p bp ->
  decompose bq data den = Ok (true, bq') -> decompose bp data den = Ok (true, bp') ->
  Forall2 grow dec (bdec bq') ->
  (exists stack, @gen_matrices T A (map (pside p) (shape p)) p = Ok stack /\ performs (geom_of p) den stack) ->
  decompose_more p dec (nsteps p - nsteps q) den = Ok (bdec bp').
Proof.
  intros HA HQ E1 E2 E3 Hle E4 E5 Hs HL HS Hden Rq Rp Dq Dp HF (stack & Hst & HP).
  apply Forall2_nth in HF as (HLen & HF).
  apply (more_ok p q HA HQ E1 E2 E3 Hle E4 E5 bq bp data den stack dec Hs HL HS Rq Rp Hden Hst HP bq' bp' Dq Dp HLen).
  exact HF.
Qed.

Lemma incremental_2d :
  accepted p -> accepted q -> is_1d p = false ->
  shape q = shape p -> wtype q = wtype p -> signum q = signum p -> (steps q <= steps p)%Z ->
  level_rows q 0 = level_rows p 0 -> level_cols q 0 = level_cols p 0 ->
  (1 <= signum p)%Z -> Z.of_nat (length data) = signum p -> Forall (shaped p) data -> keeps_shape den ->
  reachable q bq -> reachable p bp ->
  decompose bq data den = Ok (true, bq') -> decompose bp data den = Ok (true, bp') ->
  Forall2 grow dec (bdec bq') ->
  decompose_more p dec (nsteps p - nsteps q) den = Ok (bdec bp').
Proof. intros. apply incremental_gen; auto. apply performs_2d; auto. Qed.
End M.

Lemma incremental_R p q (bp bq bp' bq' : buffer R) data den dec :
  accepted p -> accepted q ->
  shape q = shape p -> wtype q = wtype p -> signum q = signum p -> (steps q <= steps p)%Z ->
  level_rows q 0 = level_rows p 0 -> level_cols q 0 = level_cols p 0 ->
  (1 <= signum p)%Z -> Z.of_nat (length data) = signum p -> Forall (shaped p) data -> keeps_shape den ->
  @reachable R exactR q bq -> @reachable R exactR p bp ->
  @decompose R exactR bq data den = Ok (true, bq') -> @decompose R exactR bp data den = Ok (true, bp') ->
  Forall2 (fun sub ch => length sub = nsteps p * bands p + 1 /\ firstn (length ch) sub = ch) dec (bdec bq') ->
  @decompose_more R exactR p dec (nsteps p - nsteps q) den = Ok (bdec bp').
Proof.
  intros. apply (@incremental_gen R exactR p q bp bq bp' bq' data den dec); auto. apply performs_R; auto.
Qed.

Open Scope R_scope.
Lemma s22 : sqrt 2 / 2 * (sqrt 2 / 2) = / 2.
Proof. pose proof (sqrt_sqrt 2 ltac:(lra)). nra. Qed.
Lemma idwt_2x2 (x y : R) :
  exists D l h, @daubechies_mat R exactR 2 2 = Ok D /\ dwt [x; y] D = Ok ([l], [h]) /\
    idwt [l] [h] (stranspose D) = Ok [y; x].
Proof.
  change 2%Z with (1 * 2)%Z. rewrite (@daubechies_mat_ok R exactR 2 1) by (cbn; lia).
  rewrite lo1, hi1. set (c := sqrt 2 / 2).
  pose proof s22 as Hc. fold c in Hc. clearbody c.
  exists (dmat_pure 2 [c; c] [c; - c]), (0 + x * c + y * c), (0 + x * c + y * - c).
  split; [reflexivity|]. split; [vm_compute; reflexivity|].
  transitivity (Ok [0 + c * (0 + x * c + y * c) + - c * (0 + x * c + y * - c);
                    0 + c * (0 + x * c + y * c) + c * (0 + x * c + y * - c)]).
  - vm_compute. reflexivity.
  - f_equal. replace [y; x] with [(c * c * 2) * y; (c * c * 2) * x] by (rewrite Hc; f_equal; [lra|f_equal; lra]).
    f_equal; [ring|]. f_equal. ring.
Qed.
