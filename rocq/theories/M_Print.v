(** * M_Print: printing.  wavelet_parameters.h:68-81, wavelet_buffer.cc:398-417,
    python/src/wavelet_parameters.cc:7-49 and python/src/wavelet_buffer.cc:250-252. *)
Require Import List ZArith NArith String Ascii DecimalString DecimalN.
Require Import Verif.M_Base Verif.M_Params Verif.M_Buffer.
Import ListNotations.
Open Scope string_scope.

(** [os << x] for a size_t, std::to_string of a size_t, [os << x] for an int
    (an unscoped enum prints as its int) in the C locale *)
Definition show_size (z : Z) : string := NilZero.string_of_uint (N.to_uint (Z.to_N z)).
Definition show_int (z : Z) : string := if (z <? 0)%Z then "-" ++ show_size (- z) else show_size z.
Definition endl : string := String (ascii_of_nat 10) "".

(** python/src/wavelet_parameters.cc:7-31 WaveletTypeRepr *)
Definition type_repr (t : Z) : string :=
  if (t =? 0)%Z then "WaveletType.NONE"
  else if (t =? 1)%Z then "WaveletType.DB1"
  else if (t =? 2)%Z then "WaveletType.DB2"
  else if (t =? 3)%Z then "WaveletType.DB3"
  else if (t =? 4)%Z then "WaveletType.DB4"
  else if (t =? 5)%Z then "WaveletType.DB5"
  else "Unknown".

(** python/src/wavelet_parameters.cc:39-44: the sides with "x" before all but
    the first *)
Fixpoint shape_repr (first : bool) (sh : list Z) : string :=
  match sh with
  | [] => ""
  | n :: t => (if first then "" else "x") ++ show_size n ++ shape_repr false t
  end.

(** python/src/wavelet_parameters.cc:33-50 WaveletParametersRepr *)
Definition params_repr (class_name : string) (p : params) : string :=
  class_name ++ "<" ++ "signal_number=" ++ show_size (signum p) ++ ", signal_shape=(" ++
  shape_repr true (shape p) ++ "), decomposition_steps=" ++ show_size (steps p) ++
  ", wavelet_type=" ++ type_repr (wtype p) ++ ">".

(** WaveletParameters.__repr__ (python/src/wavelet_parameters.cc:69-71) and
    WaveletBuffer.__repr__ (python/src/wavelet_buffer.cc:250-252) *)
Definition repr_parameters (p : params) : string := params_repr "WaveletParameters" p.
Definition repr_buffer {T} (b : buffer T) : string := params_repr "WaveletBuffer" (bpar b).

(** wavelet_parameters.h:68-81 operator<<; [row] is how Blaze prints a row
    vector of size_t *)
Definition print_params (row : list Z -> string) (p : params) : string :=
  "WaveletParameters {" ++ endl ++ "  signal_shape: " ++ row (shape p) ++
  "  signal_number: " ++ show_size (signum p) ++ endl ++
  "  decomposition_steps: " ++ show_size (steps p) ++ endl ++
  "  wavelet_type: " ++ show_int (wtype p) ++ endl ++ "}".

(** wavelet_buffer.cc:398-417 operator<<: what is written to [os] and what to
    std::cout (line 407); [mtx] is how Blaze prints a transposed matrix *)
Fixpoint concat_strings (l : list string) : string :=
  match l with [] => "" | s :: t => s ++ concat_strings t end.
Definition print_buffer {T} (row : list Z -> string) (mtx : mat T -> string) (b : buffer T) : string * string :=
  ("Wavelet Buffer {" ++ endl ++ print_params row (bpar b) ++ endl ++ "WaveletDecomposition {" ++ endl ++
   concat_strings (map (fun ch => concat_strings (map (fun sb => "  " ++ mtx sb) ch)) (bdec b)) ++
   "}" ++ endl ++ "}" ++ endl,
   concat_strings (map (fun i => "  channel: " ++ show_size (Z.of_nat i) ++ endl) (seq 0 (List.length (bdec b))))).
