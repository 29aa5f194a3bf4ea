(** * M_MetricsF: Distance and EnergyDistribution (sources/wavelet_utils.cc) in
    the arithmetic of the machine, binary32 and binary64.

    The order in which Blaze adds up numbers depends on the vector
    instructions of the machine.  [sum32] and [sum64] stand for its
    reductions and [square] for [std::pow(x, 2)]; the theorems quantify over
    them (see S_MetricsF).  Products and sums are not contracted to fused
    operations. *)
Require Import List Bool Arith ZArith.
Require Import Flocq.Core.Core Flocq.IEEE754.BinarySingleNaN.
Require Import Verif.M_Base Verif.M_Params Verif.M_Buffer Verif.M_Float Verif.M_Binary32 Verif.M_Metrics.
Import ListNotations.

Section MetricsF.
Variable sum32 : list f32 -> f32.
Variable sum64 : list f64 -> f64.
Variable square : f64 -> f64.

(** b - a in floats; blaze throws std::invalid_argument if the sizes differ *)
Definition msubtract32 (b a : mat f32) : res (mat f32) :=
  let* _ := check ((rows b =? rows a)%nat && (cols b =? cols a)%nat) in
  Ok (Mat (rows b) (cols b) (map (fun u => Bminus mode_NE (fst u) (snd u)) (combine (elts b) (elts a)))).
(** blaze::norm of a matrix of floats: a float *)
Definition mnorm32 (m : mat f32) : f32 := Bsqrt mode_NE (sum32 (map (fun x => Bmult mode_NE x x) (elts m))).

(** wavelet_utils.cc:456-468 CalcDistance.  std::pow(float, int) converts
    both arguments to double and returns a double. *)
Definition calc_distance32 (a_decs b_decs : ndecomposition f32) : res f64 :=
  loop (length a_decs) 0 (fun ch result =>
    let* a_dec := rd a_decs ch in
    loop (length a_dec) 0 (fun i result =>
      let* a := rd a_dec i in
      let* b_dec := rd b_decs ch in
      let* b := rd b_dec i in
      let* d := msubtract32 b a in
      Ok (Bplus mode_NE result (square (f64_of_f32 (mnorm32 d))))) result) (f64_of_int 0).

(** wavelet_utils.cc:447-489 Distance *)
Definition distance32 (lhs rhs : buffer f32) : res f32 :=
  let lp := bpar lhs in let rp := bpar rhs in
  let* _ := guard (Z.eqb (signum lp) (signum rp) && list_Z_eqb (shape lp) (shape rp)) in
  if Z.eqb (to_size (steps lp - steps rp)) 0 then
    let* ret := calc_distance32 (bdec lhs) (bdec rhs) in
    let n := to_size (signum lp * signal_size (shape lp)) in
    Ok (f32_of_f64 (Bdiv mode_NE ret (f64_of_int n)))
  else Ok B754_nan.

(** wavelet_utils.cc:510-517: the subband is converted to double and kept
    without its zeros; squares and their sum in double, then a float *)
Definition nonzero64 (x : f64) : bool := match x with B754_zero _ => false | _ => true end.
Definition subband_energy32 (m : mat f32) : f32 :=
  f32_of_f64 (sum64 (map (fun x => Bmult mode_NE x x) (filter nonzero64 (map f64_of_f32 (elts m))))).
(** wavelet_utils.cc:496-522 EnergyDistribution *)
Definition energy_distribution32 (b : buffer f32) : list (list f32) :=
  if is_empty b then [] else map (map subband_energy32) (bdec b).
End MetricsF.
