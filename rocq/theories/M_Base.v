(** * M_Base: outcomes, bounds-checked arrays, loops, scalars, matrices.

    These are the carriers of the model.  They stand for C++ control flow and
    for the Blaze containers used by the code in /repo; there is no line of
    /repo that a definition here models except where cited. *)
Require Import List ZArith QArith Lia.
Import ListNotations.
Set Implicit Arguments.

(** ** Outcomes of a C++ call

    [Ok v]   : the call returns v;
    [Throw]  : the call ends with a C++ exception;
    [UB]     : out-of-range access, violated precondition of a library call,
               failed [assert], read of an uninitialised variable. *)
Inductive res (A : Type) : Type :=
| Ok (a : A)
| Throw
| UB.
Arguments Ok {A} a.
Arguments Throw {A}.
Arguments UB {A}.

Definition bind {A B} (m : res A) (f : A -> res B) : res B :=
  match m with Ok a => f a | Throw => Throw | UB => UB end.

Notation "'let*' x ':=' m 'in' f" := (bind m (fun x => f))
  (at level 200, x pattern, m at level 100, f at level 200, right associativity).

(** [guard b] : an [assert(b)], or an unchecked precondition of a library call. *)
Definition guard (b : bool) : res unit := if b then Ok tt else UB.

(** [check b] : a precondition that Blaze checks itself and reports by
    throwing std::invalid_argument (views outside the matrix, size
    mismatches). *)
Definition check (b : bool) : res unit := if b then Ok tt else Throw.

(** ** Arrays: [std::vector], [blaze::DynamicVector]; operator[] unchecked in
    C++, hence [UB] when the index is out of range. *)
Definition rd {A} (l : list A) (i : nat) : res A :=
  match nth_error l i with Some a => Ok a | None => UB end.

Fixpoint upd {A} (l : list A) (i : nat) (a : A) : list A :=
  match l, i with
  | [], _ => []
  | _ :: t, O => a :: t
  | h :: t, S i' => h :: upd t i' a
  end.

Definition wr {A} (l : list A) (i : nat) (a : A) : res (list A) :=
  if Nat.ltb i (length l) then Ok (upd l i a) else UB.

(** [for (i = start; i < start + n; ++i) s = body(i, s)] *)
Fixpoint loop {S : Type} (n start : nat) (body : nat -> S -> res S) (s : S) : res S :=
  match n with
  | O => Ok s
  | Datatypes.S n' => let* s' := body start s in loop n' (Datatypes.S start) body s'
  end.

(** Fill a vector of length n element by element: [v[i] = f(i)]. *)
Fixpoint mapM {A B} (f : A -> res B) (l : list A) : res (list B) :=
  match l with
  | [] => Ok []
  | a :: t => let* b := f a in let* t' := mapM f t in Ok (b :: t')
  end.

Definition tabulateM {B} (n : nat) (f : nat -> res B) : res (list B) := mapM f (seq 0 n).

(** ** Scalars

    The numeric code of /repo is templated on nothing, it uses
    [DataType = float] (wavelet_buffer/primitives.h:13).  The model abstracts
    the arithmetic so that one model serves exact reals and rounded floats. *)
Class Arith (T : Type) := {
  a0 : T;                       (* DataType 0 *)
  aadd : T -> T -> T;           (* + on DataType *)
  amul : T -> T -> T;           (* * on DataType *)
  aopp : T -> T;                (* unary - *)
  alit : Q -> T;                (* decimal literal stored in a DataType *)
  asqrt2 : T -> T;              (* std::sqrt(2) * x stored in a DataType *)
  ascale : nat -> nat -> T -> T (* dim, steps, x: x /= pow(dim == 2 ? 2 : sqrt(2), steps) *)
}.

(** ** Dense matrices: [blaze::DynamicMatrix<T>], row-major. *)
Record mat (T : Type) := Mat { rows : nat; cols : nat; elts : list T }.
Arguments Mat {T}.
Arguments rows {T}.
Arguments cols {T}.
Arguments elts {T}.

(** [blaze::DynamicMatrix<T>()], 0x0 *)
Definition mempty {T} : mat T := Mat 0 0 [].

(** m(i,j) *)
Definition mget {T} (m : mat T) (i j : nat) : res T :=
  if (i <? rows m)%nat && (j <? cols m)%nat then rd (elts m) (i * cols m + j) else UB.

(** Build an r x c matrix element by element, row by row. *)
Definition mbuildM {T} (r c : nat) (f : nat -> nat -> res T) : res (mat T) :=
  let* l := mapM (fun k => f (k / c)%nat (k mod c)%nat) (seq 0 (r * c)) in
  Ok (Mat r c l).

(** [blaze::submatrix(m, r0, c0, h, w)] copied into a matrix (or read
    elsewhere): Blaze requires the window to lie inside m. *)
Definition msub {T} (m : mat T) (r0 c0 h w : nat) : res (mat T) :=
  let* _ := check ((r0 + h <=? rows m)%nat && (c0 + w <=? cols m)%nat) in
  mbuildM h w (fun i j => mget m (r0 + i) (c0 + j)).

(** [submatrix(dst, r0, c0, h, w) = src] where src is given elementwise. *)
Definition mblit {T} (dst : mat T) (r0 c0 h w : nat) (src : nat -> nat -> res T) : res (mat T) :=
  let* _ := check ((r0 + h <=? rows dst)%nat && (c0 + w <=? cols dst)%nat) in
  mbuildM (rows dst) (cols dst) (fun i j =>
    if (r0 <=? i)%nat && (i <? r0 + h)%nat && (c0 <=? j)%nat && (j <? c0 + w)%nat
    then src (i - r0)%nat (j - c0)%nat
    else mget dst i j).

(** [blaze::row(m, i)] as a vector, [blaze::column(m, j)] as a vector. *)
Definition mrow {T} (m : mat T) (i : nat) : res (list T) :=
  let* _ := check (i <? rows m)%nat in tabulateM (cols m) (fun j => mget m i j).
Definition mcol {T} (m : mat T) (j : nat) : res (list T) :=
  let* _ := check (j <? cols m)%nat in tabulateM (rows m) (fun i => mget m i j).

(** An n x 1 matrix whose column 0 is l:
    [Signal2D data(l.size(), 1); blaze::column(data, 0) = l]. *)
Definition mcolvec {T} (l : list T) : mat T := Mat (length l) 1 l.

(** [DynamicMatrix<T> m(r, c)]: elements uninitialised. *)
Definition mundef {T} (r c : nat) : mat (option T) := Mat r c (repeat None (r * c)).
(** Use of a matrix whose elements must have been written before. *)
Definition mfreeze {T} (m : mat (option T)) : res (mat T) :=
  let* l := mapM (fun o => match o with Some v => Ok v | None => UB end) (elts m) in
  Ok (Mat (rows m) (cols m) l).
(** lift a defined value into a matrix under construction *)
Definition some {T} (m : res T) : res (option T) := let* v := m in Ok (Some v).

(** Well-formed matrices: what a Blaze object always satisfies. *)
Definition mwf {T} (m : mat T) : Prop := length (elts m) = (rows m * cols m)%nat.

(** ** Sparse matrices: [blaze::CompressedMatrix<T>], one ascending list of
    (column, value) per row. *)
Record smat (T : Type) := SMat { srows : nat; scols : nat; srow : list (list (nat * T)) }.
Arguments SMat {T}.
Arguments srows {T}.
Arguments scols {T}.
Arguments srow {T}.

(** [mat.append(i, j, v)] on the row under construction: Blaze requires j to
    be in range and larger than every column already in the row. *)
Definition append_row {T} (ncols : nat) (row : list (nat * T)) (j : nat) (v : T)
  : res (list (nat * T)) :=
  let* _ := guard (j <? ncols)%nat in
  let* _ := guard (forallb (fun e => Nat.ltb (fst e) j) row) in
  Ok (row ++ [(j, v)]).

(** [blaze::transpose(matrix)] in place. *)
Definition stranspose {T} (m : smat T) : smat T :=
  SMat (scols m) (srows m)
    (map (fun c =>
       flat_map (fun ir => map (fun e => (fst ir, snd e))
                               (filter (fun e => Nat.eqb (fst e) c) (snd ir)))
                (combine (seq 0 (length (srow m))) (srow m)))
       (seq 0 (scols m))).

(** sparse matrix * dense vector, each row summed in column order from 0. *)
Definition spmv {T} `{Arith T} (m : smat T) (x : list T) : res (list T) :=
  let* _ := check (Nat.eqb (scols m) (length x)) in
  mapM (fun row =>
          loop (length row) 0 (fun k acc =>
            let* e := rd row k in
            let* xv := rd x (fst e) in
            Ok (aadd acc (amul (snd e) xv))) a0)
       (srow m).
