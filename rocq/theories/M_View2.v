(** * M_View2: one channel read or written through WaveletBufferView::decompositions() *)
Require Import List Bool Arith ZArith.
Require Import Verif.M_Base Verif.M_Params Verif.M_Buffer Verif.M_View.
Import ListNotations.
Section View.
Context {T : Type}.
(** wavelet_buffer_view.h:45, wavelet_buffer_view.cc:40-42, 83-86:
    [view.decompositions()[i]].  The Subvector refers to the buffer's own
    vector; its operator[] is unchecked. *)
Definition view_channel (v : view) (b : buffer T) (i : nat) : res (decomposition T) :=
  let* s := view_decompositions v b in rd s i.
(** [view.decompositions()[i] = ch]: an index beyond the subvector is outside
    its contract (UB) even where the buffer has that channel *)
Definition view_store (v : view) (b : buffer T) (i : nat) (ch : decomposition T) : res (buffer T) :=
  let* s := view_decompositions v b in
  let* _ := guard (Nat.ltb i (length s)) in
  let* dec := wr (bdec b) (Z.to_nat (vstart v) + i) ch in
  Ok (Buffer (bpar b) dec).
End View.
