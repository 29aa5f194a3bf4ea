(** * S_Exact: what the wavelet transform means over the real numbers.
    Uses the matrix and parameter types, the shapes of S_Buffer and the edge
    replication of S_Padding only. *)
Require Import List Bool Arith ZArith QArith Reals.
Require Import Verif.M_Base Verif.M_Params Verif.M_Padding Verif.S_Padding Verif.S_Buffer.
Import ListNotations.
Open Scope R_scope.

(** sum of f 0 .. f (n-1) *)
Fixpoint total (n : nat) (f : nat -> R) : R :=
  match n with O => 0 | S n => total n f + f n end.

(** element (i, j), 0 outside *)
Definition at_ (m : mat R) (i j : nat) : R := nth (i * cols m + j) (elts m) 0.

(** the channel padded to the multiple of 2^steps: centred, edges repeated *)
Definition padded_at (p : params) (m : mat R) (i j : nat) : R :=
  at_ m (nearest (drows p) (Z.of_nat i - Z.of_nat (offset kBoth (level_rows p 0) (drows p))))
        (nearest (dcols p) (Z.of_nat j - Z.of_nat (offset kBoth (level_cols p 0) (dcols p)))).
Definition padded_energy (p : params) (m : mat R) : R :=
  total (level_rows p 0) (fun i => total (level_cols p 0) (fun j => padded_at p m i j * padded_at p m i j)).

(** sum of squares *)
Definition energy (m : mat R) : R := fold_right (fun x s => x * x + s) 0 (elts m).
Definition channel_energy (ch : list (mat R)) : R := fold_right (fun m s => energy m + s) 0 ch.

(** How far the printed decimal coefficients of DBt are from an orthogonal
    filter (sum of the absolute deviations of the autocorrelations from those
    of an orthogonal filter, rounded up). *)
Definition filter_defect (t : Z) : Q :=
  match t with
  | 1%Z => 0 | 2%Z => 12 # 10000000000000 | 3%Z => 12 # 1000000000000 | 4%Z => 2 # 1000000000000
  | 5%Z => 3 # 1000000000000 | 6%Z => 4 # 10000000000000000 | 7%Z => 4 # 1000000000000
  | 8%Z => 6 # 1000000000000 | 9%Z => 11 # 100000000000 | 10%Z => 9 # 1000000000000
  | _ => 0
  end%Q.
(** relative reconstruction error after all steps *)
Definition rel_err (p : params) : R :=
  (1 + Q2R (filter_defect (wtype p))) ^ (2 * (if is_1d p then 1 else 2) * nsteps p) - 1.

(** z = a x + b y, element by element *)
Definition combines (a b : R) (x y z : mat R) : Prop :=
  rows x = rows z /\ cols x = cols z /\ rows y = rows z /\ cols y = cols z /\
  elts z = map (fun u => a * fst u + b * snd u) (combine (elts x) (elts y)).

(** mean of the 2^k (1D) or 2^k x 2^k (2D) padded samples at block (i, j) *)
Definition block_mean (p : params) (m : mat R) (k i j : nat) : R :=
  let w := if is_1d p then 1%nat else (2 ^ k)%nat in
  total (2 ^ k) (fun u => total w (fun v => padded_at p m (i * 2 ^ k + u) (j * w + v))) / INR (2 ^ k * w).

(** every sample has the value v *)
Definition constant (v : R) (m : mat R) : Prop := Forall (fun x => x = v) (elts m).
