(** * M_Padding: sources/padding.cc *)
Require Import List Bool Arith.
Require Import Verif.M_Base.
Import ListNotations.

(** wavelet_buffer/padding.h:16 enum class PaddingLocation *)
Inductive location := kRight | kBoth.

Definition is_both (loc : location) : bool := match loc with kBoth => true | kRight => false end.

Section Padding.
Context {T : Type}.

(** padding.cc:11-34 PaddingAlgorithm::Crop.  [r] [c] are rows_ columns_. *)
Definition crop (r c : nat) (loc : location) (src : mat T) : res (mat T) :=
  let* _ := guard ((c <=? cols src) && (r <=? rows src)) in
  if (r * c =? 0) then Ok src
  else
    let row0 := if is_both loc then (rows src - r) / 2 else 0 in
    let col0 := if is_both loc then (cols src - c) / 2 else 0 in
    msub src row0 col0 r c.

(** padding.cc:36-61 ZeroPaddingAlgorithm::Extend *)
Definition extend_zero (zero : T) (r c : nat) (loc : location) (src : mat T) : res (mat T) :=
  let* _ := guard ((cols src <=? c) && (rows src <=? r)) in
  if (r * c =? 0) then Ok src
  else
    let result := Mat r c (repeat zero (r * c)) in
    let row0 := if is_both loc then (r - rows src) / 2 else 0 in
    let col0 := if is_both loc then (c - cols src) / 2 else 0 in
    mblit result row0 col0 (rows src) (cols src) (fun i j => mget src i j).

(** padding.cc:63-160 ZeroDerivativePaddingAlgorithm::Extend.  The edges are
    one-row/one-column submatrices of the source; [blaze::repeat] of an edge
    reads the edge cyclically, here at index 0 of its short side. *)
Definition extend (r c : nat) (loc : location) (src : mat T) : res (mat T) :=
  let* _ := guard ((cols src <=? c) && (rows src <=? r)) in
  if (r * c =? 0) then Ok src
  else
    let dc := c - cols src in                                             (* 75 *)
    let dr := r - rows src in                                             (* 76 *)
    let left := if is_both loc then dc / 2 else 0 in                      (* 80-92 *)
    let top := if is_both loc then dr / 2 else 0 in
    let right := if is_both loc then dc / 2 + dc mod 2 else dc in
    let bottom := if is_both loc then dr / 2 + dr mod 2 else dr in
    (* 94-97: original part *)
    let* m := mblit (mundef r c) top left (rows src) (cols src)
                (fun i j => some (mget src i j)) in
    (* 99-105: four edges; submatrix throws if the source is empty *)
    let* _ := check ((1 <=? cols src) && (1 <=? rows src)) in
    let lastc := cols src - 1 in
    let lastr := rows src - 1 in
    (* 107-112: corner values *)
    let* br := mget src lastr lastc in
    let* tl := mget src 0 0 in
    let* tr := mget src 0 lastc in
    let* bl := mget src lastr 0 in
    (* 116-136: edges *)
    let* m := if 0 <? right
              then mblit m top (left + cols src) (rows src) right
                     (fun i j => some (mget src i lastc))
              else Ok m in
    let* m := if 0 <? bottom
              then mblit m (top + rows src) left bottom (cols src)
                     (fun i j => some (mget src lastr j))
              else Ok m in
    let* m := if 0 <? left
              then mblit m top 0 (rows src) left (fun i j => some (mget src i 0))
              else Ok m in
    let* m := if 0 <? top
              then mblit m 0 left top (cols src) (fun i j => some (mget src 0 j))
              else Ok m in
    (* 138-157: corners *)
    let* m := if (0 <? bottom) && (0 <? right)
              then mblit m (top + rows src) (left + cols src) bottom right
                     (fun i j => Ok (Some br))
              else Ok m in
    let* m := if (0 <? bottom) && (0 <? left)
              then mblit m (top + rows src) 0 bottom left (fun i j => Ok (Some bl))
              else Ok m in
    let* m := if (0 <? top) && (0 <? left)
              then mblit m 0 0 top left (fun i j => Ok (Some tl))
              else Ok m in
    let* m := if (0 <? top) && (0 <? right)
              then mblit m 0 (left + cols src) top right (fun i j => Ok (Some tr))
              else Ok m in
    mfreeze m.

End Padding.
