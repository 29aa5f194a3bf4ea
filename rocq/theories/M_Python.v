(** * M_Python: the Python module (python/src), on top of M_Buffer and M_View

    NumPy and pybind11 are external.  A numpy array is its memory, the offset
    of its first element, its shape, its strides in bytes, the size of an item,
    whether its dtype is float32 and whether it is writable. *)
Require Import List Bool Arith ZArith.
Require Import Verif.M_Base Verif.M_Params Verif.M_Buffer Verif.M_View.
Import ListNotations.
Open Scope Z_scope.

Record ndarray := ND {
  nd_mem : list Z; nd_off : Z; nd_shape : list nat; nd_strides : list Z;
  nd_item : nat; nd_f32 : bool; nd_writable : bool
}.

Definition byte_at (mem : list Z) (z : Z) : res Z := if z <? 0 then UB else rd mem (Z.to_nat z).
Definition load_bytes (mem : list Z) (off : Z) (n : nat) : res (list Z) :=
  tabulateM n (fun i => byte_at mem (off + Z.of_nat i)).

(** a[idx] in Python: the bytes of the item *)
Fixpoint offset (idx : list nat) (strides : list Z) : Z :=
  match idx, strides with
  | i :: idx, s :: strides => Z.of_nat i * s + offset idx strides
  | _, _ => 0
  end.
Definition item (a : ndarray) (idx : list nat) : res (list Z) :=
  load_bytes (nd_mem a) (nd_off a + offset idx (nd_strides a)) (nd_item a).

(** a new, C-contiguous float32 array *)
Record array (T : Type) := Arr { ashape : list nat; aelts : list T }.
Arguments Arr {T}.
Arguments ashape {T}.
Arguments aelts {T}.

Section Python.
Context {T : Type} {A : Arith T}.
(** the float with these four bytes *)
Variable load_float : list Z -> T.
(** pybind11's cast<float> of an item that is not a float32; None: an exception *)
Variable cast_item : list Z -> option T.

(** ** python/src/blaze_utils.cc *)

(** [static_cast<const float *>(data.request(true).ptr)[i]].  request(true)
    asks for a writable buffer and raises for a read-only array; the callers
    below check it.  Alignment is not modelled. *)
Definition raw_float (a : ndarray) (i : nat) : res T :=
  let* bs := load_bytes (nd_mem a) (nd_off a + 4 * Z.of_nat i) 4 in Ok (load_float bs).

(** blaze_utils.cc:17-36 PyArrayToSignalN2D.  [shape[k]] is a read behind the
    array of dimensions if there are fewer.  int indexes are taken for
    unbounded. *)
Definition array_to_signals (a : ndarray) : res (list (mat T)) :=
  let* c := rd (nd_shape a) 0 in
  let* h := rd (nd_shape a) 1 in
  let* w := rd (nd_shape a) 2 in
  tabulateM c (fun ch => mbuildM h w (fun i j => raw_float a (h * w * ch + w * i + j)%nat)).

(** blaze_utils.cc:38-65 SignalN2DToPyArray: data[0] of an empty vector is UB *)
Definition signals_to_array (data : list (mat T)) : res (array T) :=
  let* d0 := rd data 0 in
  let h := rows d0 in
  let w := cols d0 in
  let* l := tabulateM (length data * (h * w)) (fun k =>
      let* d := rd data (k / (h * w)) in
      mget d ((k mod (h * w)) / w) ((k mod (h * w)) mod w)) in
  Ok (Arr [length data; h; w] l).

(** blaze_utils.cc:67-108 NWaveletDecompositionToNPy: one array per subband *)
Definition mat_to_array (m : mat T) : res (array T) :=
  let* l := tabulateM (rows m * cols m) (fun k => mget m (k / cols m) (k mod cols m)) in
  Ok (Arr [rows m; cols m] l).
Definition decompositions_to_py (d : ndecomposition T) : res (list (list (array T))) :=
  mapM (mapM mat_to_array) d.

(** blaze_utils.cc:110-134 NPyDecompositionToNW.  The arrays are those pybind11
    hands over: an array_t<float> keeps the strides of a float32 array. *)
Definition array_to_mat (a : ndarray) : res (mat T) :=
  let* h := rd (nd_shape a) 0 in
  let* w := rd (nd_shape a) 1 in
  let* _ := check (nd_writable a) in
  mbuildM h w (fun i j => raw_float a (w * i + j)%nat).
Definition py_to_decompositions (d : list (list ndarray)) : res (ndecomposition T) :=
  mapM (mapM array_to_mat) d.

(** ** python/src/wavelet_buffer.cc

    Methods that change the buffer return whether they returned (true) or
    raised an exception (false), with the buffer after the call.  Throw is a
    C++ exception from inside the library. *)

(** wavelet_buffer.cc:24-55 DecomposeN2DSignal *)
Definition py_decompose2 (b : buffer T) (a : ndarray) (den : denoiser T) : res (bool * buffer T) :=
  let p := bpar b in
  if negb (length (nd_shape a) =? 3)%nat then Ok (false, b)
  else
    let* c := rd (nd_shape a) 0 in
    if negb (Z.of_nat c =? signum p) then Ok (false, b)
    else
      let* h := rd (nd_shape a) 1 in
      let* ph := rd (shape p) 1 in
      if negb (Z.of_nat h =? ph) then Ok (false, b)
      else
        let* w := rd (nd_shape a) 2 in
        let* pw := rd (shape p) 0 in
        if negb (Z.of_nat w =? pw) then Ok (false, b)
        else if negb (nd_writable a) then Ok (false, b)
        else
          let* data := array_to_signals a in
          decompose b data den.

(** the items of a one-dimensional array as Python iterates over it, each cast
    to float *)
Fixpoint cast_items (a : ndarray) (is : list nat) : res (option (list T)) :=
  match is with
  | [] => Ok (Some [])
  | i :: is =>
      let* bs := item a [i] in
      match (if nd_f32 a then Some (load_float bs) else cast_item bs) with
      | None => Ok None
      | Some x => let* r := cast_items a is in
                  Ok (match r with Some l => Some (x :: l) | None => None end)
      end
  end.

(** wavelet_buffer.cc:63-87 Decompose1DSignal *)
Definition py_decompose1 (b : buffer T) (a : ndarray) (den : denoiser T) : res (bool * buffer T) :=
  if negb (length (nd_shape a) =? 1)%nat then Ok (false, b)
  else
    let* n := rd (nd_shape a) 0 in
    let* pn := rd (shape (bpar b)) 0 in
    if negb (Z.of_nat n =? pn) then Ok (false, b)
    else
      let* l := cast_items a (seq 0 n) in
      match l with
      | None => Ok (false, b)
      | Some l => decompose1 b l den
      end.

(** wavelet_buffer.cc:174-186 decompose *)
Definition py_decompose (b : buffer T) (a : ndarray) (den : denoiser T) : res (bool * buffer T) :=
  if (dimension (bpar b) =? 1)%nat then py_decompose1 b a den
  else if (dimension (bpar b) =? 2)%nat then py_decompose2 b a den
  else Ok (false, b).

(** wavelet_buffer.cc:94-102, 109-117, 188-200 compose; None is the Python
    exception of a refused composition *)
Definition py_compose (b : buffer T) (sf : Z) : res (option (array T)) :=
  if (dimension (bpar b) =? 1)%nat then
    let* r := compose1 b sf in
    Ok (if fst r then Some (Arr [length (snd r)] (snd r)) else None)
  else if (dimension (bpar b) =? 2)%nat then
    let* r := compose b sf in
    if fst r then let* a := signals_to_array (snd r) in Ok (Some a) else Ok None
  else Ok None.

(** wavelet_buffer.cc:134-156 the constructor; python/src/wavelet_buffer/
    wavelet_buffer.py:37-64 passes an empty list like none *)
Definition py_construct (p : params) (decs : list (list ndarray)) : res (buffer T) :=
  match decs with
  | [] => new_buffer p
  | _ => let* d := py_to_decompositions decs in new_buffer_with p d
  end.

(** wavelet_buffer.py:66-80 and wavelet_buffer.cc:158-170 decomposition_size *)
Definition py_decomposition_size (sh : list Z) (st : Z) : nat := decomposition_size (Params sh 0 st 0).

(** *** Slices *)
(** CPython's PySlice_Unpack and PySlice_AdjustIndices: None is the exception
    for a zero step.  A slice bound is clamped to ssize_t. *)
Definition clamp (x : Z) : Z := Z.max (- 2 ^ 63) (Z.min (2 ^ 63 - 1) x).
Definition adjust (down : bool) (n x : Z) : Z :=
  if x <? 0 then (let y := x + n in if y <? 0 then (if down then -1 else 0) else y)
  else if n <=? x then (if down then n - 1 else n) else x.
Definition slice_compute (n : Z) (start stop step : option Z) : option (Z * Z * Z) :=
  let k := match step with None => 1 | Some k => Z.max (- (2 ^ 63 - 1)) (clamp k) end in
  if k =? 0 then None
  else
    let down := k <? 0 in
    let s := match start with None => if down then 2 ^ 63 - 1 else 0 | Some x => clamp x end in
    let e := match stop with None => if down then - 2 ^ 63 else 2 ^ 63 - 1 | Some x => clamp x end in
    Some (adjust down n s, adjust down n e, k).

(** wavelet_buffer.cc:221-242 __getitem__: start, stop and step are size_t;
    None is an exception; otherwise start_signal and count of the proxy
    (int).  The proxy refers to the same buffer: py::cast of an object that
    Python already holds gives that object. *)
Definition int_of (z : Z) : Z := (z + 2 ^ 31) mod 2 ^ 32 - 2 ^ 31.
Definition py_getitem (p : params) (start stop step : option Z) : option (Z * Z) :=
  match slice_compute (signum p) start stop step with
  | None => None
  | Some (s, e, k) =>
      if 1 <? wrap64 k then None
      else if s =? e then None
      else Some (int_of s, int_of (wrap64 (e - s)))
  end.

(** ** python/src/wavelet_buffer_view.cc *)

(** wavelet_buffer_view.cc:20-52, 67-79 decompose *)
Definition py_view_decompose (b : buffer T) (v : Z * Z) (a : ndarray) (den : denoiser T) : res (bool * buffer T) :=
  let p := bpar b in
  if negb (dimension p =? 2)%nat then Ok (false, b)
  else if negb (length (nd_shape a) =? 3)%nat then Ok (false, b)
  else
    let* c := rd (nd_shape a) 0 in
    if negb (Z.of_nat c =? snd v) then Ok (false, b)
    else
      let* h := rd (nd_shape a) 1 in
      let* ph := rd (shape p) 1 in
      if negb (Z.of_nat h =? ph) then Ok (false, b)
      else
        let* w := rd (nd_shape a) 2 in
        let* pw := rd (shape p) 0 in
        if negb (Z.of_nat w =? pw) then Ok (false, b)
        else if negb (nd_writable a) then Ok (false, b)
        else
          let* data := array_to_signals a in
          view_decompose (View (fst v) (snd v) true) b data den.

(** wavelet_buffer_view.cc:54-63, 80-90 compose *)
Definition py_view_compose (b : buffer T) (v : Z * Z) (sf : Z) : res (option (array T)) :=
  if negb (dimension (bpar b) =? 2)%nat then Ok None
  else
    let* r := view_compose (View (fst v) (snd v) true) b sf in
    match r with
    | (true, Some data) => let* a := signals_to_array data in Ok (Some a)
    | (true, None) => UB
    | (false, _) => Ok None
    end.

(** ** python/src/img/codecs.cc *)

(** codecs.cc:33-43 encode: no check of the number of dimensions.  [enc] is
    IImageCodec::Encode. *)
Definition py_encode (enc : list (mat T) -> res (option (list Z))) (a : ndarray) : res (option (list Z)) :=
  let* _ := rd (nd_shape a) 1 in
  let* _ := rd (nd_shape a) 2 in
  let* _ := check (nd_writable a) in
  let* data := array_to_signals a in
  enc data.

End Python.
