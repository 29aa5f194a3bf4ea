(** * M_Metrics: Distance, EnergyDistribution (sources/wavelet_utils.cc) and
    GetValueRange (sources/wavelet_buffer.cc), over exact reals. *)
Require Import List Bool Arith ZArith Reals.
Require Import Verif.M_Base Verif.M_Params Verif.M_Buffer.
Import ListNotations.
Open Scope R_scope.

(** A floating-point result as far as these functions need it: the C++ code
    computes in double and rounds to float; here numbers are exact. *)
Inductive num := Num (x : R) | PosInf | NegInf | NaN.

(** conversions size_t -> int and int -> size_t (modulo 2^32, 2^64) *)
Definition to_int (x : Z) : Z := ((x + 2 ^ 31) mod 2 ^ 32 - 2 ^ 31)%Z.
Definition to_size (x : Z) : Z := (x mod 2 ^ 64)%Z.

(** b - a; blaze throws std::invalid_argument if the sizes differ *)
Definition msubtract (b a : mat R) : res (mat R) :=
  let* _ := check ((rows b =? rows a)%nat && (cols b =? cols a)%nat) in
  Ok (Mat (rows b) (cols b) (map (fun u => fst u - snd u) (combine (elts b) (elts a)))).
(** blaze::norm: square root of the sum of squares *)
Definition mnorm (m : mat R) : R := sqrt (fold_left (fun s x => s + x * x) (elts m) 0).

(** wavelet_utils.cc:456-468 CalcDistance *)
Definition calc_distance (a_decs b_decs : ndecomposition R) : res R :=
  loop (length a_decs) 0 (fun ch result =>
    let* a_dec := rd a_decs ch in
    loop (length a_dec) 0 (fun i result =>
      let* a := rd a_dec i in
      let* b_dec := rd b_decs ch in
      let* b := rd b_dec i in
      let* d := msubtract b a in
      Ok (result + mnorm d ^ 2)) result) 0.

(** wavelet_utils.cc:483-485: std::accumulate with an int accumulator: every
    partial product is converted to int *)
Definition signal_size (sh : list Z) : Z :=
  to_size (fold_left (fun (acc : Z) n => to_int (to_size (to_size acc * n))) sh 1%Z).

Definition list_Z_eqb (a b : list Z) : bool :=
  (length a =? length b)%nat && forallb (fun u => Z.eqb (fst u) (snd u)) (combine a b).

(** wavelet_utils.cc:447-489 Distance.  A failed assert is [UB].  The
    division is by a size_t converted to double: 0/0 is NaN, x/0 infinite. *)
Definition distance (lhs rhs : buffer R) : res num :=
  let lp := bpar lhs in let rp := bpar rhs in
  let* _ := guard (Z.eqb (signum lp) (signum rp) && list_Z_eqb (shape lp) (shape rp)) in
  if Z.eqb (to_size (steps lp - steps rp)) 0 then
    let* ret := calc_distance (bdec lhs) (bdec rhs) in
    let n := to_size (signum lp * signal_size (shape lp)) in
    Ok (if Z.eqb n 0 then (if Req_EM_T ret 0 then NaN else PosInf) else Num (ret / IZR n))
  else Ok NaN.

(** wavelet_utils.cc:496-522 EnergyDistribution.  The subband is copied into
    a CompressedMatrix, which keeps the non-zero elements. *)
Definition nonzero (x : R) : bool := if Req_EM_T x 0 then false else true.
Definition subband_energy (m : mat R) : R := fold_left (fun s x => s + x * x) (filter nonzero (elts m)) 0.
Definition energy_distribution (b : buffer R) : list (list R) :=
  if is_empty b then [] else map (map subband_energy) (bdec b).

(** std::pow(2, k) for a size_t k, as float: exact up to 2^127, infinite above *)
Definition pow2f (k : Z) : num := if Z.ltb k 128 then Num (IZR (2 ^ k)) else PosInf.
Definition num_neg (x : num) : num :=
  match x with Num r => Num (- r) | PosInf => NegInf | NegInf => PosInf | NaN => NaN end.
Definition num_twice (x : num) : num := match x with Num r => Num (2 * r) | y => y end.

(** wavelet_buffer.cc:265-278 GetValueRange *)
Definition get_value_range (b : buffer R) (index : nat) : res (num * num) :=
  let* d0 := rd (bdec b) 0 in
  let* _ := guard (index <? length d0)%nat in
  let is_approximation := (index =? length d0 - 1)%nat in
  let delta := pow2f (to_size (steps (bpar b) - 1)) in
  let delta := if negb is_approximation
               then pow2f (Z.of_nat (index / (if (length (shape (bpar b)) =? 1)%nat then 1 else 3)))
               else delta in
  Ok (if is_approximation then (Num 0, num_twice delta) else (num_neg delta, delta)).
