(** * M_CacheFail: the matrix cache (sources/wavelet_utils.cc:22-106) when
    memory runs out.  Both maps change by one std::map::insert each (58, 85),
    which allocates its node, with copies of the key and of the stack, before
    it changes the map; all other allocations are made before it or after it.
    So memory runs out before the insert, which leaves the map as it was, or
    after it, which leaves the complete entry. *)
Require Import List Bool Arith ZArith.
Require Import Verif.M_Base Verif.M_Params Verif.M_Buffer Verif.M_View Verif.M_Cache.
Import ListNotations.
Open Scope nat_scope.

Section F.
Context {T : Type} {A : Arith T}.

(** 37-60 GenerateMatrices; [mem]: memory suffices for a new entry *)
Definition generate_matrices_m (mem : bool) (c : cache T) (padded : list Z) (p : params) : cres nat :=
  match tfind p (plain c) with
  | Some a => (c, Ok a)
  | None =>
      cbind (c, gen_matrices padded p) (fun c st =>
      if negb mem then (c, Throw)
      else
        let '(t, a) := tinsert p (length (cells c)) (plain c) in
        (Cache (cells c ++ [st]) t (tcells c) (transposed c), Ok a))
  end.

(** 68-87 GenerateTransMatrices; [mem2]: memory suffices for the copy of the
    stack (78) and for the new entry (85) *)
Definition generate_trans_matrices_m (mem mem2 : bool) (c : cache T) (padded : list Z) (p : params) : cres nat :=
  match tfind p (transposed c) with
  | Some a => (c, Ok a)
  | None =>
      cbind (generate_matrices_m mem c padded p) (fun c r =>
      cbind (c, rd (cells c) r) (fun c copy =>
      let st := map (map stranspose) copy in
      if negb mem2 then (c, Throw)
      else
        let '(t, a) := tinsert p (length (tcells c)) (transposed c) in
        (Cache (cells c) (plain c) (tcells c ++ [st]) t, Ok a)))
  end.

(** The cache after a Decompose ([back] = false, 261-264) or a Compose ([back]
    = true, 368-375) of a 2D buffer with parameters p that memory ended: in the
    cache, or after it when [mem] and [mem2] are true. *)
Definition cache_left (back mem mem2 : bool) (c : cache T) (p : params) : cache T :=
  match calc_padded (wtype p) (shape p) (steps p) with
  | Ok padded => if back then fst (generate_trans_matrices_m mem mem2 c padded p)
                 else fst (generate_matrices_m mem c padded p)
  | _ => c
  end.

End F.
