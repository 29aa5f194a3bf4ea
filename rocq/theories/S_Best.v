(** * S_Best: counting values, and how many the simple denoiser may keep. *)
Require Import List Bool Arith ZArith Reals.
Require Import Verif.M_Base Verif.M_Params Verif.S_Params Verif.S_Buffer Verif.S_Stable.
Import ListNotations.
Open Scope R_scope.

(** number of values that are not zero *)
Fixpoint nonzeros (l : list R) : nat :=
  match l with
  | [] => O
  | x :: r => ((if Req_EM_T x 0 then 0 else 1) + nonzeros r)%nat
  end.

(** of n values, at compression level [level], k are kept: n less the whole
    part of n * level, but at least one *)
Definition survivors (level : R) (n k : nat) : Prop :=
  exists drop : nat, INR drop <= INR n * level < INR drop + 1 /\ k = (n - Nat.min drop (n - 1))%nat.

(** every detail subband of the channel has at most as many nonzero values as
    the simple denoiser keeps *)
Definition as_sparse (level : R) (p : params) (ch : list (mat R)) : Prop :=
  forall s i d, (s < nsteps p)%nat -> (i < bands p)%nat -> nth_error ch (s * bands p + i) = Some d ->
    exists k, survivors level (length (elts d)) k /\ (nonzeros (elts d) <= k)%nat.

(** what keeping detail values costs when a value of step s costs (a s + b)^2 *)
Definition step_cost (a b : R) (s : nat) : R := (a * INR s + b) * (a * INR s + b).
Fixpoint cost_from (a b : R) (p : params) (k : nat) (ch : list (mat R)) : R :=
  match ch with
  | [] => 0
  | d :: r => (if Nat.ltb k (nsteps p * bands p) then step_cost a b (k / bands p) * INR (nonzeros (elts d)) else 0)
              + cost_from a b p (S k) r
  end.
Definition detail_cost (a b : R) (p : params) (ch : list (mat R)) : R := cost_from a b p 0 ch.
