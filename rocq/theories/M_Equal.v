(** * M_Equal: comparing two buffers, and CompressedSize
    (sources/wavelet_buffer.cc:222-262, 362-373). *)
Require Import List Bool Arith ZArith.
Require Import Verif.M_Base Verif.M_Params Verif.M_Buffer.
Import ListNotations.

Section Equal.
Context {T : Type}.
(** Blaze's comparison of two DataType values.  Not code of /repo: it is a
    parameter of the model (Blaze compares floats with a tolerance). *)
Variable eq : T -> T -> bool.

(** blaze operator== on two vectors: sizes, then elements in order *)
Fixpoint vec_eqb {A} (e : A -> A -> bool) (a b : list A) : bool :=
  match a, b with
  | [], [] => true
  | x :: a', y :: b' => e x y && vec_eqb e a' b'
  | _, _ => false
  end.

(** blaze operator== on two matrices: rows, columns, then elements *)
Definition mat_eqb (a b : mat T) : bool :=
  (rows a =? rows b) && (cols a =? cols b) && vec_eqb eq (elts a) (elts b).

(** wavelet_buffer.cc:222-225 Impl::operator==, called by 367-369 *)
Definition buffer_eqb (a b : buffer T) : bool :=
  params_eqb (bpar a) (bpar b) && vec_eqb (vec_eqb mat_eqb) (bdec a) (bdec b).

(** wavelet_buffer.cc:371-373 operator!=: !(rhs == *this) *)
Definition buffer_neqb (a b : buffer T) : bool := negb (buffer_eqb b a).

(** int -> size_t -> int conversions of std::accumulate's running value *)
Definition to_int32 (z : Z) : Z := ((z + 2 ^ 31) mod 2 ^ 32 - 2 ^ 31)%Z.
Definition to_size (z : Z) : Z := (z mod 2 ^ 64)%Z.

(** wavelet_buffer.cc:249-262 CompressedSize.  The inner accumulate runs in
    size_t, the outer one has the initial value 0, hence keeps an int
    between two channels.  [isz] is Blaze's test for a default value
    (nonZeros). *)
Definition compressed_size (isz : T -> bool) (b : buffer T) : Z :=
  to_size (fold_left
    (fun acc dec =>
       to_int32 (fold_left
         (fun s m => to_size (s + 4 * Z.of_nat (length (filter (fun x => negb (isz x)) (elts m)))))%Z
         dec (to_size acc)))
    (bdec b) 0%Z).
End Equal.
