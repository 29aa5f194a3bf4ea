(** * M_Log2: CalculateMaxDecompositionSteps in doubles
    (sources/wavelet_utils.cc:119-133), and the constructor and CalcPaddedSize
    with it.  M_Params.max_steps is the same with exact numbers; [C02_floats]
    relates the two.  [log2] is the function of the C library, about which the
    theorems state what they need. *)
Require Import List ZArith Bool.
Require Import Flocq.Core.Core Flocq.IEEE754.BinarySingleNaN.
Import ListNotations.
From Verif Require Import M_Base M_Params M_Buffer M_Float M_SfCodec.
Open Scope Z_scope.

Section Log2.
Variable log2 : f64 -> f64.

(** wavelet_utils.cc:132.  min_side (size_t) is converted to double, the
    divisor is exact (type is an int).  std::floor, then the conversion of the
    result to int, undefined outside its range. *)
Definition steps_of (t n : Z) : res Z :=
  let d := f64_sub (f64_mul (f64_of_int 2) (f64_of_int t)) (f64_of_int 1) in
  let l := log2 (f64_div (f64_of_int n) d) in
  let* _ := guard (is_finite l) in
  let fl := Zfloor (B2R l) in
  let* _ := guard (Z.abs fl <? 2 ^ 31) in
  Ok fl.

(** wavelet_utils.cc:119-133 *)
Definition max_steps_lib (t : Z) (sh : list Z) : res Z :=
  if t =? 0 then Ok 0
  else let* m := min_elem sh in steps_of t m.

(** wavelet_buffer.cc:28-65, as M_Buffer.new_buffer *)
Definition new_buffer_lib {T} (p : params) : res (buffer T) :=
  if negb ((dimension p =? 2) || (dimension p =? 1))%nat then Throw
  else
    let* min_size := min_signal_size (wtype p) in
    let* shortest := min_elem (shape p) in
    if shortest <? min_size then Throw
    else
      let* mx := max_steps_lib (wtype p) (shape p) in
      if mx <? steps p then Throw
      else
        let p' := Params (shape p) (signum p) (if wtype p =? 0 then 0 else steps p) (wtype p) in
        Ok (Buffer p' (repeat (repeat mempty (decomposition_size p')) (Z.to_nat (signum p)))).

(** wavelet_utils.cc:139-160, as M_Params.calc_padded *)
Definition calc_padded_lib (t : Z) (sh : list Z) (k : Z) : res (list Z) :=
  if t =? 0 then Ok sh
  else
    let* mx := max_steps_lib t sh in
    let* _ := guard (k <=? mx) in
    Ok (map (padded_side (2 ^ k)) sh).

End Log2.
