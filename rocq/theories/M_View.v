(** * M_View: sources/wavelet_buffer_view.cc *)
Require Import List Bool Arith ZArith.
Require Import Verif.M_Base Verif.M_Params Verif.M_Buffer.
Import ListNotations.
Open Scope Z_scope.

(** wavelet_buffer_view.cc:66-69: start_signal_, count_ are ints.  The two
    buffer pointers are the buffer argument of the functions below;
    [vmutable] says whether buffer_ is not null (views of a const
    WaveletBuffer have buffer_ = nullptr, lines 13-17). *)
Record view := View { vstart : Z; vcount : Z; vmutable : bool }.

Section View.
Context {T : Type} {A : Arith T}.

(** wavelet_buffer_view.cc:58-64 CheckChannelRange:
    [signal_number < start_signal_ + count_] compares a size_t with an int
    sum converted to size_t.  A sum outside int is UB. *)
Definition check_range (v : view) (b : buffer T) : res bool :=
  let s := vstart v + vcount v in
  let* _ := guard ((- 2 ^ 31 <=? s) && (s <? 2 ^ 31)) in
  Ok (negb (signum (bpar b) <? wrap64 s)).

(** Arguments start_signal_/count_ are passed to wavelet_utils.cc as size_t.
    [for (int ch = start; ch < start + count; ++ch)] compares modulo 2^64, so
    with a negative start or a negative count (and start + count >= 0, which
    CheckChannelRange has established) the loop body never runs. *)
Definition odd_range (v : view) : bool := (vstart v <? 0) || (vcount v <? 0).

(** wavelet_buffer_view.cc:25-31 Decompose; dereferences buffer_ *)
Definition view_decompose (v : view) (b : buffer T) (data : list (mat T)) (den : denoiser T)
  : res (bool * buffer T) :=
  let* ok := check_range v b in
  if negb ok then Ok (false, b)
  else
    let* _ := guard (vmutable v) in
    if odd_range v then
      let* ok := shape_ok (bpar b) data (wrap64 (vcount v)) in
      Ok (ok, b)
    else
      let* r := decompose_impl (bpar b) (bdec b) data den
                  (Z.to_nat (vstart v)) (Z.to_nat (vcount v)) in
      Ok (fst r, Buffer (bpar b) (snd r)).

(** wavelet_buffer_view.cc:33-38 Compose: [None] = output left untouched.
    Negative count: [SignalN2D(count)] cannot be allocated (Throw).  Negative
    start, positive count: the subbands are never filled and
    wavelet_utils.cc:431 indexes an empty vector (UB). *)
Definition view_compose (v : view) (b : buffer T) (sf : Z)
  : res (bool * option (list (mat T))) :=
  let* ok := check_range v b in
  if negb ok then Ok (false, None)
  else
    let* k := scale_arg sf in
    if vcount v <? 0 then Throw
    else if (vstart v <? 0) && (0 <? vcount v) then UB
    else
      let* r := compose_impl (bpar b) (bdec b) k (Z.to_nat (vstart v)) (Z.to_nat (vcount v)) in
      Ok (fst r, Some (snd r)).

(** wavelet_buffer_view.cc:44-55 CastToBuffer.  new_buf_params.signal_number
    = count_ (int to size_t: a negative count asks for an impossible
    allocation, modelled as Throw); no range check: decompositions()[ch +
    start] may be out of range (UB). *)
Definition view_cast (v : view) (b : buffer T) : res (buffer T) :=
  if vcount v <? 0 then Throw
  else
    let p := bpar b in
    let* nb := new_buffer (Params (shape p) (vcount v) (steps p) (wtype p)) in
    let* dec := loop (Z.to_nat (vcount v)) 0 (fun ch dec =>
        let idx := Z.of_nat ch + vstart v in
        let* src := if idx <? 0 then UB else rd (bdec b) (Z.to_nat idx) in
        wr dec ch src) (bdec nb) in
    Ok (Buffer (bpar nb) dec).

(** wavelet_buffer_view.cc:40-42 decompositions(): subvector of
    buffer_->decompositions(), null dereference for a const view.  Blaze
    throws if offset + size, a sum of size_t, exceeds the vector's size; with a
    negative start or count the sum can wrap to a small number, and the
    Subvector then refers to nothing (UB, said here when it is made). *)
Definition view_decompositions (v : view) (b : buffer T) : res (ndecomposition T) :=
  let* _ := guard (vmutable v) in
  let* _ := check (wrap64 (vstart v + vcount v) <=? Z.of_nat (length (bdec b))) in
  let* _ := guard (negb (odd_range v)) in
  Ok (firstn (Z.to_nat (vcount v)) (skipn (Z.to_nat (vstart v)) (bdec b))).

End View.
