(** * M_Buffer: sources/wavelet_utils.cc (transform part) and
    sources/wavelet_buffer.cc (class Impl) *)
Require Import List Bool Arith ZArith QArith.
Require Import Verif.M_Base Verif.M_Params Verif.M_Padding Verif.M_Wavelet.
Import ListNotations.
Open Scope nat_scope.

(** DenoiseAlgorithm<T> (denoise_algorithms.h:15-32): an arbitrary pair of
    functions; the result may have any shape. *)
Record denoiser (T : Type) := Denoiser {
  den1 : list T -> nat -> list T;
  den2 : mat T -> nat -> mat T
}.
Arguments Denoiser {T}.
Arguments den1 {T}.
Arguments den2 {T}.

(** denoise_algorithms.h:39-50 NullDenoiseAlgorithm *)
Definition null_denoiser {T} : denoiser T := Denoiser (fun d _ => d) (fun d _ => d).

(** wavelet_utils.h:19-21: Subband, WaveletDecomposition, NWaveletDecomposition *)
Definition decomposition (T : Type) := list (mat T).
Definition ndecomposition (T : Type) := list (decomposition T).

(** wavelet_buffer.cc:290-294 state of WaveletBuffer::Impl *)
Record buffer (T : Type) := Buffer { bpar : params; bdec : ndecomposition T }.
Arguments Buffer {T}.
Arguments bpar {T}.
Arguments bdec {T}.

Section Buffer.
Context {T : Type} {A : Arith T}.

(** ** Construction *)

(** wavelet_buffer.cc:28-65 Impl::Impl(parameters).  Allocation failure for
    absurd signal numbers is not modelled. *)
Definition new_buffer (p : params) : res (buffer T) :=
  if negb ((dimension p =? 2) || (dimension p =? 1)) then Throw          (* 30 *)
  else
    let* min_size := min_signal_size (wtype p) in                        (* 39 *)
    let* shortest := min_elem (shape p) in
    if (shortest <? min_size)%Z then Throw                               (* 40 *)
    else
      let* mx := max_steps (wtype p) (shape p) in
      if (mx <? steps p)%Z then Throw                                    (* 47 *)
      else
        let p' := Params (shape p) (signum p)
                    (if (wtype p =? 0)%Z then 0%Z else steps p) (wtype p) in (* 54 *)
        Ok (Buffer p' (repeat (repeat mempty (decomposition_size p'))
                              (Z.to_nat (signum p)))).

(** wavelet_buffer.cc:67-88 Impl::Impl(parameters, decompositions) *)
Definition new_buffer_with (p : params) (d : ndecomposition T) : res (buffer T) :=
  let* b := new_buffer p in
  if negb (signum (bpar b) =? Z.of_nat (length d))%Z then Throw
  else if negb (forallb (fun ed => length (fst ed) =? length (snd ed))
                        (combine (bdec b) d)) then Throw
  else Ok (Buffer (bpar b) d).

(** ** Decomposition *)

(** wavelet_utils.h:115-129 AddPadding, with
    [Padding = ZeroDerivativePaddingAlgorithm], location kBoth. *)
Definition rows_cols (sh : list Z) : res (nat * nat) :=
  if 1 <? length sh then
    let* r := rd sh 1 in let* c := rd sh 0 in Ok (Z.to_nat r, Z.to_nat c)
  else let* r := rd sh 0 in Ok (Z.to_nat r, 1).
Definition add_padding (data : mat T) (padded : list Z) : res (mat T) :=
  let* rc := rows_cols padded in
  extend (fst rc) (snd rc) kBoth data.

(** wavelet_utils.h:93-106 CropPadding *)
Definition crop_padding (data : mat T) (sh : list Z) : res (mat T) :=
  let* rc := rows_cols sh in
  crop (fst rc) (snd rc) kBoth data.

(** wavelet_utils.cc:192-207 CalculateOneSideStep1D: new detail subbands and
    the new approximation.  [column(data,0) = denoised] throws on a size
    mismatch. *)
Definition one_side_step_1d (den : denoiser T) (wm : list (smat T)) (signal : mat T) (step : nat)
  : res (list (mat T) * mat T) :=
  let* sig := mcol signal 0 in
  let* w0 := rd wm 0 in
  let* lh := dwt sig w0 in
  let d := den1 den (snd lh) step in
  let* _ := check (length d =? length (snd lh)) in
  Ok ([mcolvec d], mcolvec (fst lh)).

(** wavelet_utils.cc:170-183 CalculateOneSideStep2D *)
Definition one_side_step_2d (den : denoiser T) (wm : list (smat T)) (signal : mat T) (step : nat)
  : res (list (mat T) * mat T) :=
  let* w0 := rd wm 0 in
  let* w1 := rd wm 1 in
  let* q := dwt2 signal w0 w1 in
  let '(cA, cH, cV, cD) := q in
  Ok ([den2 den cH step; den2 den cV step; den2 den cD step], cA).

(** wavelet_utils.cc:216-226 CalculateOneSideStep *)
Definition one_side_step (dim : nat) (den : denoiser T) (wm : list (smat T)) (signal : mat T)
  (step : nat) : res (list (mat T) * mat T) :=
  if dim =? 1 then one_side_step_1d den wm signal step
  else one_side_step_2d den wm signal step.

(** [*(dest + k) = s_k] for consecutive k *)
Fixpoint store (dec : decomposition T) (off : nat) (l : list (mat T)) : res (decomposition T) :=
  match l with
  | [] => Ok dec
  | s :: t => let* dec' := wr dec off s in store dec' (S off) t
  end.

(** wavelet_utils.cc:37-60 GenerateMatrices without the cache (see M_Cache):
    stack[step][dim].  [padded / pow(2, step)] truncated (97-100), exact
    below 2^53. *)
Definition gen_matrices (padded : list Z) (p : params) : res (list (list (smat T))) :=
  tabulateM (Z.to_nat (steps p)) (fun step =>
    mapM (fun n => daubechies_mat (Z.to_nat (n / 2 ^ Z.of_nat step)) (wtype p * 2)) padded).

(** wavelet_utils.cc:68-87 GenerateTransMatrices without the cache *)
Definition gen_trans_matrices (padded : list Z) (p : params) : res (list (list (smat T))) :=
  let* st := gen_matrices padded p in
  Ok (map (map stranspose) st).

(** wavelet_utils.cc:266-274: 1D analysis filters *)
Definition filters (t : Z) : res (list T * list T * list T * list T) :=
  let* w := if (t =? 0)%Z then Ok [] else dbwavf t in
  Ok (orthfilt w).
Definition analysis_mat (t : Z) : res (smat T) :=
  let* f := filters t in
  let '(lo_d, hi_d, _, _) := f in
  Ok (filter_mat (rev lo_d) (rev hi_d)).
(** wavelet_utils.cc:377-385: 1D synthesis filters *)
Definition synthesis_mat (t : Z) : res (smat T) :=
  let* f := filters t in
  let '(_, _, lo_r, hi_r) := f in
  Ok (filter_mat (rev lo_r) (rev hi_r)).

(** wavelet_utils.cc:276-294: the body of the channel loop: new subband list
    of one channel.  [mats step] is {dmat} (1D) or
    wavelet_matrix_stack[step] (2D). *)
Definition decompose_channel (p : params) (den : denoiser T) (padded : list Z)
  (mats : nat -> res (list (smat T))) (dec : decomposition T) (data : mat T)
  : res (decomposition T) :=
  let* channel := add_padding data padded in                              (* 277 *)
  let n := Z.to_nat (steps p) in
  let* st := loop n 0 (fun step (st : decomposition T * mat T) =>        (* 279 *)
      let* wm := mats step in
      let* r := one_side_step (dimension p) den wm (snd st) step in
      let* dec' := store (fst st) (step * spw p) (fst r) in
      Ok (dec', snd r)) (dec, channel) in
  wr (fst st) (n * spw p) (snd st).                                       (* 292 *)

(** wavelet_utils.cc:237-251: the shape checks; [data[0]] on an empty vector
    is UB.  Result: true = accepted. *)
Definition shape_ok (p : params) (data : list (mat T)) (signal_count : Z) : res bool :=
  if dimension p =? 2 then
    if negb (Z.of_nat (length data) =? signal_count)%Z then Ok false
    else
      let* d0 := rd data 0 in
      let* w := rd (shape p) 0 in
      let* h := rd (shape p) 1 in
      Ok ((Z.of_nat (cols d0) =? w)%Z && (Z.of_nat (rows d0) =? h)%Z)
  else if dimension p =? 1 then
    let* d0 := rd data 0 in
    let* n := rd (shape p) 0 in
    Ok (Z.of_nat (rows d0) =? n)%Z
  else Ok true.

(** wavelet_utils.cc:233-297 DecomposeImpl, with the matrix generator (cache)
    as a parameter [gen] of the model: result is (return value, new
    decompositions). *)
Definition decompose_impl_gen (gen : list Z -> params -> res (list (list (smat T))))
  (p : params) (dec : ndecomposition T) (data : list (mat T)) (den : denoiser T)
  (start count : nat) : res (bool * ndecomposition T) :=
  let* ok := shape_ok p data (Z.of_nat count) in
  if negb ok then Ok (false, dec)
  else
    let* padded := calc_padded (wtype p) (shape p) (steps p) in           (* 254 *)
    let* stack := if dimension p =? 2 then gen padded p else Ok [] in     (* 261 *)
    let* dmat := analysis_mat (wtype p) in                                (* 266-274 *)
    let mats step := if dimension p =? 1 then Ok [dmat] else rd stack step in
    let* dec' := loop count start (fun ch dec =>                          (* 276 *)
        let* d := rd data (ch - start) in
        let* sub := rd dec ch in
        let* sub' := decompose_channel p den padded mats sub d in
        wr dec ch sub') dec in
    Ok (true, dec').

Definition decompose_impl := decompose_impl_gen gen_matrices.

(** wavelet_buffer.cc:96-100 Decompose(SignalN2D) *)
Definition decompose (b : buffer T) (data : list (mat T)) (den : denoiser T)
  : res (bool * buffer T) :=
  let* r := decompose_impl (bpar b) (bdec b) data den 0 (Z.to_nat (signum (bpar b))) in
  Ok (fst r, Buffer (bpar b) (snd r)).

(** wavelet_buffer.cc:107-114 Decompose(Signal1D): channel 0 only *)
Definition decompose1 (b : buffer T) (data : list T) (den : denoiser T)
  : res (bool * buffer T) :=
  let* r := decompose_impl (bpar b) (bdec b) [mcolvec data] den 0 1 in
  Ok (fst r, Buffer (bpar b) (snd r)).

(** wavelet_utils.cc:304-332 DecomposeImpl (partial): continue a
    decomposition that already has [steps p - more] steps. *)
Definition decompose_more_gen (gen : list Z -> params -> res (list (list (smat T))))
  (p : params) (dec : ndecomposition T) (more : nat) (den : denoiser T)
  : res (ndecomposition T) :=
  let* padded := calc_padded (wtype p) (shape p) (steps p) in
  let* stack := gen padded p in
  let old := Z.to_nat (steps p) - more in
  loop (Z.to_nat (signum p)) 0 (fun ch dec =>
    let* sub := rd dec ch in
    let* remainder := rd sub (old * spw p) in
    let* st := loop more 0 (fun add (st : decomposition T * mat T) =>
        let step := add + old in
        let* wm := rd stack step in
        let* r := one_side_step (dimension p) den wm (snd st) step in
        let* dec' := store (fst st) (step * spw p) (fst r) in
        Ok (dec', snd r)) (sub, remainder) in
    let* sub' := wr (fst st) (Z.to_nat (steps p) * spw p) (snd st) in
    wr dec ch sub') dec.
Definition decompose_more := decompose_more_gen gen_matrices.

(** ** Composition *)

(** wavelet_utils.cc:341-359 ComposeStep; [src] is the index i*spw, the
    subbands read are src-1 (1D) or src-3, src-2, src-1 (2D). *)
Definition compose_step (dim : nat) (low : mat T) (dec : decomposition T) (src : nat)
  (wm : list (smat T)) : res (mat T) :=
  if dim =? 1 then
    let* _ := guard (1 <=? src) in
    let* high := rd dec (src - 1) in
    let* lc := mcol low 0 in
    let* hc := mcol high 0 in
    let* w0 := rd wm 0 in
    let* r := idwt lc hc w0 in
    Ok (mcolvec r)
  else
    let* _ := guard (3 <=? src) in
    let* lh := rd dec (src - 3) in
    let* hl := rd dec (src - 2) in
    let* hh := rd dec (src - 1) in
    let* w0 := rd wm 0 in
    let* w1 := rd wm 1 in
    idwt2 low lh hl hh w0 w1.

(** wavelet_utils.cc:392-405: compose one channel down to scale k:
    for (i = steps; i > k; --i).  The loop counter runs over
    i = steps - it. *)
Definition compose_channel (p : params) (mats : nat -> res (list (smat T)))
  (dec : decomposition T) (k : nat) : res (mat T) :=
  let n := Z.to_nat (steps p) in
  let* channel := rd dec (n * spw p) in
  loop (n - k) 0 (fun it channel =>
    let i := n - it in
    let* wm := mats (i - 1) in
    compose_step (dimension p) channel dec (i * spw p) wm) channel.

(** [vec.resize(n, true)] of a decomposition: keeps the first elements, new
    ones are empty matrices. *)
Definition resize_dec (dec : decomposition T) (n : nat) : decomposition T :=
  firstn n dec ++ repeat mempty (n - length dec).

(** wavelet_utils.cc:361-412 ComposeImpl (partial composition).  [k] is
    steps; callers pass an int converted to size_t: see [compose]. *)
Definition compose_partial_gen (gen : list Z -> params -> res (list (list (smat T))))
  (p : params) (dec : ndecomposition T) (k start count : nat)
  : res (ndecomposition T) :=
  let* stack := if dimension p =? 2
                then let* padded := calc_padded (wtype p) (shape p) (steps p) in
                     gen padded p
                else Ok [] in
  let* dmat := synthesis_mat (wtype p) in
  let mats i := if dimension p =? 1 then Ok [dmat] else rd stack i in
  tabulateM count (fun sub_index =>
    let* sub := rd dec (start + sub_index) in
    let* channel := compose_channel p mats sub k in
    let sub' := resize_dec sub (k * spw p + 1) in
    wr sub' (length sub' - 1) channel).

Definition compose_partial := compose_partial_gen gen_trans_matrices.

(** wavelet_utils.cc:414-440 ComposeImpl (signals).  [x / pow(2, steps)]
    truncated to size_t (426): exact below 2^53. *)
Definition compose_impl_gen (gen : list Z -> params -> res (list (list (smat T))))
  (p : params) (dec : ndecomposition T) (k start count : nat)
  : res (bool * list (mat T)) :=
  let* subbands := compose_partial_gen gen p dec k start count in
  let scaled := map (fun x => (x / 2 ^ Z.of_nat k)%Z) (shape p) in
  let* data := mapM (fun sub =>
      let* aprox := rd sub (length sub - 1) in
      let* aprox := crop_padding aprox scaled in
      Ok (if 0 <? k
          then Mat (rows aprox) (cols aprox) (map (ascale (dimension p) k) (elts aprox))
          else aprox)) subbands in
  Ok (true, data).

Definition compose_impl := compose_impl_gen gen_trans_matrices.

(** The int scale_factor is converted to size_t (wavelet_buffer.cc:122, 135):
    a negative value becomes >= 2^63.  Then no step is recomposed, and
    [resize(steps*spw+1)] at wavelet_utils.cc:407 is a request modulo 2^64:
    for -1 in 1D it is resize(0) followed by a write to element 2^64-1 (UB);
    for other values it is an impossible allocation.  The model says UB for
    every negative scale factor. *)
Definition scale_arg (sf : Z) : res nat := if (sf <? 0)%Z then UB else Ok (Z.to_nat sf).

(** wavelet_buffer.cc:121-124 Compose into a SignalN2D *)
Definition compose (b : buffer T) (sf : Z) : res (bool * list (mat T)) :=
  let* k := scale_arg sf in
  compose_impl (bpar b) (bdec b) k 0 (Z.to_nat (signum (bpar b))).

(** wavelet_buffer.cc:131-140 Compose into a Signal1D: returns true; data2d[0] of
    an empty result is UB, column 0 of a matrix without columns throws. *)
Definition compose1 (b : buffer T) (sf : Z) : res (bool * list T) :=
  let* k := scale_arg sf in
  let* r := compose_impl (bpar b) (bdec b) k 0 (Z.to_nat (signum (bpar b))) in
  if fst r then
    let* m := rd (snd r) 0 in
    let* v := mcol m 0 in
    Ok (true, v)
  else Ok (true, []).

(** ** Helpers *)

(** wavelet_buffer.cc:280-287 IsEmpty *)
Definition is_empty (b : buffer T) : bool :=
  forallb (forallb (fun m => rows m * cols m =? 0)) (bdec b).

End Buffer.
