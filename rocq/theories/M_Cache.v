(** * M_Cache: class WaveletMatrixCache (sources/wavelet_utils.cc:22-106),
    called from one thread and from many. *)
Require Import List Bool Arith ZArith.
Require Import Verif.M_Base Verif.M_Params Verif.M_Buffer Verif.M_View.
Import ListNotations.
Open Scope nat_scope.

(** std::map<WaveletParameters, WaveletMatrixStack> (27-28): a search tree
    ordered by WaveletParameters::operator<.  Nodes are never moved or
    destroyed by insert, so the values of a map's nodes are kept in a list
    beside the tree and the tree holds the position [nat] in it, its address:
    a reference returned by the cache is such an address.  Rebalancing (which changes neither the order nor the
    addresses) is not modelled. *)
Inductive tree := Leaf | Node (l : tree) (k : params) (addr : nat) (r : tree).

(** std::map::find *)
Fixpoint tfind (k : params) (t : tree) : option nat :=
  match t with
  | Leaf => None
  | Node l k' a r =>
      if params_ltb k k' then tfind k l
      else if params_ltb k' k then tfind k r
      else Some a
  end.

(** std::map::insert of a new node at address [a]; if an equivalent key is
    there, nothing is inserted and the address of the old node is returned *)
Fixpoint tinsert (k : params) (a : nat) (t : tree) : tree * nat :=
  match t with
  | Leaf => (Node Leaf k a Leaf, a)
  | Node l k' a' r =>
      if params_ltb k k' then let '(l', x) := tinsert k a l in (Node l' k' a' r, x)
      else if params_ltb k' k then let '(r', x) := tinsert k a r in (Node l k' a' r', x)
      else (t, a')
  end.

(** ** One thread *)
Section Sequential.
Context {T : Type} {A : Arith T}.

Definition stack := list (list (smat T)).

(** 102-103: cache_ ([plain] with the values [cells]) and trans_cache_
    ([transposed] with the values [tcells]). *)
Record cache := Cache {
  cells : list stack; plain : tree; tcells : list stack; transposed : tree }.

(** 106: static WaveletMatrixCache matrix_cache; *)
Definition empty_cache : cache := Cache [] Leaf [] Leaf.

(** A computation on the cache: the cache afterwards (also when it ends with
    an exception) and the outcome. *)
Definition cres (X : Type) := (cache * res X)%type.
Definition cbind {X Y} (m : cres X) (f : cache -> X -> cres Y) : cres Y :=
  match m with
  | (c, Ok x) => f c x
  | (c, Throw) => (c, Throw)
  | (c, UB) => (c, UB)
  end.

(** 37-60 GenerateMatrices: the returned reference.  An exception or failed
    assertion leaves the maps as they are. *)
Definition generate_matrices (c : cache) (padded : list Z) (p : params) : cres nat :=
  match tfind p (plain c) with
  | Some a => (c, Ok a)
  | None =>
      cbind (c, gen_matrices padded p) (fun c st =>
      let '(t, a) := tinsert p (length (cells c)) (plain c) in
      (Cache (cells c ++ [st]) t (tcells c) (transposed c), Ok a))
  end.

(** 68-87 GenerateTransMatrices *)
Definition generate_trans_matrices (c : cache) (padded : list Z) (p : params) : cres nat :=
  match tfind p (transposed c) with
  | Some a => (c, Ok a)
  | None =>
      cbind (generate_matrices c padded p) (fun c r =>
      cbind (c, rd (cells c) r) (fun c copy =>
      let st := map (map stranspose) copy in
      let '(t, a) := tinsert p (length (tcells c)) (transposed c) in
      (Cache (cells c) (plain c) (tcells c ++ [st]) t, Ok a)))
  end.

(** 233-297 DecomposeImpl with the cache: when the shape checks pass and the
    signal is 2D, the stack is copied from the cache (261-264).  The rest is
    [decompose_impl_gen] of M_Buffer, which repeats the (pure) checks. *)
Definition decompose_impl_c (c : cache) (p : params) (dec : ndecomposition T)
  (data : list (mat T)) (den : denoiser T) (start : nat) (count : nat)
  : cres (bool * ndecomposition T) :=
  cbind (c, shape_ok p data (Z.of_nat count)) (fun c ok =>
  if negb ok then (c, Ok (false, dec))
  else
    cbind (c, calc_padded (wtype p) (shape p) (steps p)) (fun c padded =>
    cbind (if dimension p =? 2
           then cbind (generate_matrices c padded p) (fun c r => (c, rd (cells c) r))
           else (c, Ok [])) (fun c st =>
    (c, decompose_impl_gen (fun _ _ => Ok st) p dec data den start count)))).

(** 361-440 ComposeImpl with the cache *)
Definition compose_impl_c (c : cache) (p : params) (dec : ndecomposition T) (k start count : nat)
  : cres (bool * list (mat T)) :=
  cbind (if dimension p =? 2
         then cbind (c, calc_padded (wtype p) (shape p) (steps p)) (fun c padded =>
              cbind (generate_trans_matrices c padded p) (fun c r => (c, rd (tcells c) r)))
         else (c, Ok [])) (fun c st =>
  (c, compose_impl_gen (fun _ _ => Ok st) p dec k start count)).

(** 304-332 DecomposeImpl (partial) with the cache *)
Definition decompose_more_c (c : cache) (p : params) (dec : ndecomposition T) (more : nat)
  (den : denoiser T) : cres (ndecomposition T) :=
  cbind (c, calc_padded (wtype p) (shape p) (steps p)) (fun c padded =>
  cbind (generate_matrices c padded p) (fun c r =>
  cbind (c, rd (cells c) r) (fun c st =>
  (c, decompose_more_gen (fun _ _ => Ok st) p dec more den)))).

(** wavelet_buffer.cc:96-140 and wavelet_buffer_view.cc:25-38 on top of them *)
Definition decompose_c (c : cache) (b : buffer T) data den : cres (bool * buffer T) :=
  cbind (decompose_impl_c c (bpar b) (bdec b) data den 0 (Z.to_nat (signum (bpar b)))) (fun c r =>
  (c, Ok (fst r, Buffer (bpar b) (snd r)))).

Definition decompose1_c (c : cache) (b : buffer T) (data : list T) den : cres (bool * buffer T) :=
  cbind (decompose_impl_c c (bpar b) (bdec b) [mcolvec data] den 0 1) (fun c r =>
  (c, Ok (fst r, Buffer (bpar b) (snd r)))).

Definition compose_c (c : cache) (b : buffer T) (sf : Z) : cres (bool * list (mat T)) :=
  cbind (c, scale_arg sf) (fun c k =>
  compose_impl_c c (bpar b) (bdec b) k 0 (Z.to_nat (signum (bpar b)))).

Definition compose1_c (c : cache) (b : buffer T) (sf : Z) : cres (bool * list T) :=
  cbind (c, scale_arg sf) (fun c k =>
  cbind (compose_impl_c c (bpar b) (bdec b) k 0 (Z.to_nat (signum (bpar b)))) (fun c r =>
  (c, if fst r then
        let* m := rd (snd r) 0 in
        let* v := mcol m 0 in
        Ok (true, v)
      else Ok (true, [])))).

(** For the odd ranges of M_View the loop body does not run, but the
    matrices are generated. *)
Definition view_decompose_c (c : cache) (v : view) (b : buffer T) data den
  : cres (bool * buffer T) :=
  cbind (c, check_range v b) (fun c ok =>
  if negb ok then (c, Ok (false, b))
  else
    cbind (c, guard (vmutable v)) (fun c _ =>
    if odd_range v then
      cbind (c, shape_ok (bpar b) data (wrap64 (vcount v))) (fun c ok =>
      (if negb ok then c
       else match calc_padded (wtype (bpar b)) (shape (bpar b)) (steps (bpar b)) with
            | Ok padded => if dimension (bpar b) =? 2
                           then fst (generate_matrices c padded (bpar b)) else c
            | _ => c
            end, Ok (ok, b)))
    else
      cbind (decompose_impl_c c (bpar b) (bdec b) data den
               (Z.to_nat (vstart v)) (Z.to_nat (vcount v))) (fun c r =>
      (c, Ok (fst r, Buffer (bpar b) (snd r)))))).

Definition view_compose_c (c : cache) (v : view) (b : buffer T) (sf : Z)
  : cres (bool * option (list (mat T))) :=
  cbind (c, check_range v b) (fun c ok =>
  if negb ok then (c, Ok (false, None))
  else
    cbind (c, scale_arg sf) (fun c k =>
    if (vcount v <? 0)%Z then (c, Throw)
    else if ((vstart v <? 0) && (0 <? vcount v))%Z then (c, UB)
    else
      cbind (compose_impl_c c (bpar b) (bdec b) k (Z.to_nat (vstart v)) (Z.to_nat (vcount v)))
        (fun c r => (c, Ok (fst r, Some (snd r)))))).

End Sequential.
Arguments stack : clear implicits.
Arguments cache : clear implicits.

(** ** Many threads *)

(** Small steps of GenerateMatrices and GenerateTransMatrices as executed by
    concurrent threads.  [gen p] stands for the loop of lines 45-56 with
    padded_shape = CalcPaddedSize(p), as all callers pass it; [tr] for the
    transposition of lines 80-84.  Every step below is one atomic action; the
    actions that touch a map, a cell or a mutex are separate steps. *)
Section Threads.
Context {V : Type} (gen : params -> res V) (tr : V -> V).

(** A call of the cache: [true] = GenerateTransMatrices. *)
Record request := Request { rtrans : bool; rpar : params }.

(** Where a thread is.  [outer] says whether GenerateMatrices was called by
    GenerateTransMatrices (line 79), which then still holds trans_mutex_. *)
Inductive pc :=
| Idle                                    (* between calls *)
| TFind (p : params)                      (* 70-72: trans_mutex_ held *)
| TInner (p : params)                     (* 79: about to lock mutex_ *)
| PLock (p : params)                      (* 39: about to lock mutex_ *)
| PFind (outer : bool) (p : params)       (* 41: mutex_ held *)
| PGen (outer : bool) (p : params)        (* 46-56 *)
| PInsert (outer : bool) (p : params) (v : V)             (* 58 *)
| PUnlock (outer : bool) (p : params) (r : res nat)       (* 59 and ~lock_guard *)
| TCopy (p : params) (a : nat)            (* 79: copy through the reference *)
| TInsert (p : params) (v : V)            (* 86 *)
| TUnlock (p : params) (r : res nat)      (* 87 and ~lock_guard *)
| TLock (p : params)                      (* 70: about to lock trans_mutex_ *)
| Use (rq : request) (r : res nat).       (* 262/373: the caller copies through
                                             the returned reference *)

(** A thread: the calls still to make, where it is, and what its finished
    calls gave (most recent first). *)
Record thread := Thread { todo : list request; at_pc : pc; got : list (request * res V) }.

(** mutex_ and trans_mutex_ are free ([None]) or held by a thread. *)
Record world := World {
  wcells : list V; wplain : tree; wtcells : list V; wtrans : tree;
  mutex : option nat; trans_mutex : option nat;
  threads : list thread }.

Definition set_thread (w : world) (t : nat) (th : thread) : world :=
  World (wcells w) (wplain w) (wtcells w) (wtrans w) (mutex w) (trans_mutex w)
        (firstn t (threads w) ++ th :: skipn (S t) (threads w)).

Definition goto (w : world) (t : nat) (th : thread) (q : pc) : world :=
  set_thread w t (Thread (todo th) q (got th)).

(** reading through a reference into cache_ or (true) trans_cache_ *)
Definition deref (w : world) (trans : bool) (r : res nat) : res V :=
  let* a := r in rd (if trans then wtcells w else wcells w) a.

(** One step of thread [t]; [None] = finished or blocked on a mutex. *)
Definition step (w : world) (t : nat) : option world :=
  match nth_error (threads w) t with
  | None => None
  | Some th =>
      match at_pc th with
      | Idle =>
          match todo th with
          | [] => None
          | rq :: rest =>
              Some (set_thread w t (Thread rest (if rtrans rq then TLock (rpar rq) else PLock (rpar rq))
                                      (got th)))
          end
      | PLock p =>
          match mutex w with
          | Some _ => None
          | None => Some (goto (World (wcells w) (wplain w) (wtcells w) (wtrans w) (Some t) (trans_mutex w) (threads w))
                               t th (PFind false p))
          end
      | TInner p =>
          match mutex w with
          | Some _ => None
          | None => Some (goto (World (wcells w) (wplain w) (wtcells w) (wtrans w) (Some t) (trans_mutex w) (threads w))
                               t th (PFind true p))
          end
      | TLock p =>
          match trans_mutex w with
          | Some _ => None
          | None => Some (goto (World (wcells w) (wplain w) (wtcells w) (wtrans w) (mutex w) (Some t) (threads w))
                               t th (TFind p))
          end
      | PFind o p =>
          match tfind p (wplain w) with
          | Some a => Some (goto w t th (PUnlock o p (Ok a)))
          | None => Some (goto w t th (PGen o p))
          end
      | PGen o p =>
          match gen p with
          | Ok v => Some (goto w t th (PInsert o p v))
          | Throw => Some (goto w t th (PUnlock o p Throw))
          | UB => Some (goto w t th (PUnlock o p UB))
          end
      | PInsert o p v =>
          let '(m, a) := tinsert p (length (wcells w)) (wplain w) in
          Some (goto (World (wcells w ++ [v]) m (wtcells w) (wtrans w) (mutex w) (trans_mutex w) (threads w))
                     t th (PUnlock o p (Ok a)))
      | PUnlock o p r =>
          Some (goto (World (wcells w) (wplain w) (wtcells w) (wtrans w) None (trans_mutex w) (threads w)) t th
                  (if o then match r with
                             | Ok a => TCopy p a
                             | Throw => TUnlock p Throw
                             | UB => TUnlock p UB
                             end
                   else Use (Request false p) r))
      | TFind p =>
          match tfind p (wtrans w) with
          | Some a => Some (goto w t th (TUnlock p (Ok a)))
          | None => Some (goto w t th (TInner p))
          end
      | TCopy p a =>
          match deref w false (Ok a) with
          | Ok v => Some (goto w t th (TInsert p (tr v)))
          | _ => Some (goto w t th (TUnlock p UB))
          end
      | TInsert p v =>
          let '(m, a) := tinsert p (length (wtcells w)) (wtrans w) in
          Some (goto (World (wcells w) (wplain w) (wtcells w ++ [v]) m (mutex w) (trans_mutex w) (threads w))
                     t th (TUnlock p (Ok a)))
      | TUnlock p r =>
          Some (goto (World (wcells w) (wplain w) (wtcells w) (wtrans w) (mutex w) None (threads w)) t th
                  (Use (Request true p) r))
      | Use rq r =>
          Some (set_thread w t (Thread (todo th) Idle ((rq, deref w (rtrans rq) r) :: got th)))
      end
  end.

(** Run a schedule: a list of thread numbers; a thread that cannot move is
    skipped. *)
Fixpoint run (sched : list nat) (w : world) : world :=
  match sched with
  | [] => w
  | t :: s => run s (match step w t with Some w' => w' | None => w end)
  end.

(** The start: empty maps, free mutexes, each thread with its calls. *)
Definition start (calls : list (list request)) : world :=
  World [] Leaf [] Leaf None None (map (fun c => Thread c Idle []) calls).

(** Memory a thread's next step touches: the map objects and the node values
    (of trans_cache_ if the first argument is true); [true] = writes. *)
Inductive place := PlainMap | TransMap | Cell (trans : bool) (a : nat).
Definition touches (w : world) (t : nat) : list (place * bool) :=
  match nth_error (threads w) t with
  | None => []
  | Some th =>
      match at_pc th with
      | PFind _ _ => [(PlainMap, false)]
      | PInsert _ _ _ => [(PlainMap, true); (Cell false (length (wcells w)), true)]
      | TFind _ => [(TransMap, false)]
      | TInsert _ _ => [(TransMap, true); (Cell true (length (wtcells w)), true)]
      | TCopy _ a => [(Cell false a, false)]
      | Use rq (Ok a) => [(Cell (rtrans rq) a, false)]
      | _ => []
      end
  end.

End Threads.
