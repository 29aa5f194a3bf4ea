(** * M_Object: WaveletBuffer objects in memory: construction, copy, move,
    assignment, destruction, views and references.

    A WaveletBuffer is one pointer, std::unique_ptr<Impl> impl_
    (wavelet_buffer.h:199); an Impl lives in a cell of the heap.  Cells and
    objects are numbered in the order of their creation and numbers are not
    reused, so a stale pointer never meets a new object. *)
Require Import List Bool Arith ZArith.
Require Import Verif.M_Base Verif.M_Params Verif.M_Buffer Verif.M_View.
Import ListNotations.
Open Scope nat_scope.

Section Object.
Context {T : Type} {A : Arith T}.

(** [hcells]: the Impl of a cell, [None] after delete.
    [hobjs]: [None] after the destructor, else impl_ ([None] = nullptr).
    [hviews]: views; wavelet_buffer_view.cc:66-69 keeps the address of the WaveletBuffer.
    [hrefs]: references to channels, [WaveletDecomposition&]: a cell and an index. *)
Record heap := Heap {
  hcells : list (option (buffer T));
  hobjs : list (option (option nat));
  hviews : list (nat * view);
  hrefs : list (nat * nat)
}.
Definition empty_heap : heap := Heap [] [] [] [].

(** what a call ends with: an exception with everything as before, a bool, or a value *)
Inductive outcome := Raised | Did (ok : bool) | Saw (b : buffer T).

Definition set_cells h x := Heap x (hobjs h) (hviews h) (hrefs h).
Definition set_objs h x := Heap (hcells h) x (hviews h) (hrefs h).

(** [i.impl_]: a destroyed object may not be used *)
Definition impl_of (h : heap) (i : nat) : res (option nat) :=
  let* o := rd (hobjs h) i in match o with Some q => Ok q | None => UB end.
(** [*i.impl_] *)
Definition cell_of (h : heap) (i : nat) : res nat :=
  let* q := impl_of h i in match q with Some a => Ok a | None => UB end.
Definition load (h : heap) (a : nat) : res (buffer T) :=
  let* c := rd (hcells h) a in match c with Some b => Ok b | None => UB end.
Definition deref (h : heap) (i : nat) : res (buffer T) := let* a := cell_of h i in load h a.
Definition save (h : heap) (a : nat) (b : buffer T) : res heap :=
  let* _ := load h a in let* c := wr (hcells h) a (Some b) in Ok (set_cells h c).

(** new Impl(...): std::make_unique *)
Definition alloc (h : heap) (b : buffer T) : heap * nat :=
  (set_cells h (hcells h ++ [Some b]), length (hcells h)).
(** delete of the pointer a unique_ptr holds: twice is UB *)
Definition free (h : heap) (q : option nat) : res heap :=
  match q with
  | None => Ok h
  | Some a => let* _ := load h a in let* c := wr (hcells h) a None in Ok (set_cells h c)
  end.
(** impl_.reset(q): the new pointer is stored, then the old object deleted *)
Definition reset (h : heap) (i : nat) (q : option nat) : res heap :=
  let* old := impl_of h i in
  let* o := wr (hobjs h) i (Some q) in
  free (set_objs h o) old.
(** impl_.release() *)
Definition release (h : heap) (i : nat) : res (heap * option nat) :=
  let* old := impl_of h i in
  let* o := wr (hobjs h) i (Some None) in
  Ok (set_objs h o, old).
Definition new_object (h : heap) (q : option nat) : heap := set_objs h (hobjs h ++ [Some q]).

(** construct an Impl from a result that may throw; [mem] = false: the
    allocation throws std::bad_alloc *)
Definition construct (h : heap) (mem : bool) (r : res (buffer T)) : res (heap * outcome) :=
  match r with
  | UB => UB
  | Throw => Ok (h, Raised)
  | Ok b => if mem then let (h1, a) := alloc h b in Ok (new_object h1 (Some a), Did true) else Ok (h, Raised)
  end.

Inductive op :=
| ONew (mem : bool) (p : params)
| ONewWith (mem : bool) (p : params) (d : ndecomposition T)
| OCopy (mem : bool) (i : nat)
| OMove (i : nat)
| OAssign (mem : bool) (i j : nat)
| OMoveAssign (i j : nat)
| ODestroy (i : nat)
| ODecompose (i : nat) (data : list (mat T)) (den : denoiser T)
| OLook (i : nat)
| OView (i : nat) (v : view)
| OViewDecompose (n : nat) (data : list (mat T)) (den : denoiser T)
| OViewCast (mem : bool) (n : nat)
| ORef (i ch : nat)
| ORefWrite (n : nat) (ch : decomposition T).

Definition step (h : heap) (o : op) : res (heap * outcome) :=
  match o with
  (** wavelet_buffer.cc:303-304 *)
  | ONew mem p => construct h mem (new_buffer p)
  (** wavelet_buffer.cc:306-308 *)
  | ONewWith mem p d => construct h mem (new_buffer_with p d)
  (** wavelet_buffer.cc:310-311 copy constructor *)
  | OCopy mem i => let* b := deref h i in construct h mem (Ok b)
  (** wavelet_buffer.cc:301 move constructor = default: release *)
  | OMove i => let* r := release h i in Ok (new_object (fst r) (snd r), Did true)
  (** wavelet_buffer.cc:375-378 operator=(const&): the copy is made first *)
  | OAssign mem i j =>
      let* _ := impl_of h i in
      let* b := deref h j in
      if mem then let (h1, a) := alloc h b in let* h2 := reset h1 i (Some a) in Ok (h2, Did true)
      else Ok (h, Raised)
  (** wavelet_buffer.cc:380-381 operator=(&&) = default: impl_.reset(other.impl_.release()) *)
  | OMoveAssign i j =>
      let* _ := impl_of h i in
      let* r := release h j in let* h2 := reset (fst r) i (snd r) in Ok (h2, Did true)
  (** wavelet_buffer.cc:299 destructor = default *)
  | ODestroy i =>
      let* q := impl_of h i in
      let* o := wr (hobjs h) i None in
      let* h2 := free (set_objs h o) q in Ok (h2, Did true)
  (** wavelet_buffer.cc:314-317 *)
  | ODecompose i data den =>
      let* a := cell_of h i in let* b := load h a in
      let* r := decompose b data den in
      let* h2 := save h a (snd r) in Ok (h2, Did (fst r))
  (** any const member function: Compose, Serialize, ==, parameters, ... sees the Impl only *)
  | OLook i => let* b := deref h i in Ok (h, Saw b)
  (** wavelet_buffer.cc:388-394: the view keeps [this] *)
  | OView i v => let* _ := impl_of h i in
      Ok (Heap (hcells h) (hobjs h) (hviews h ++ [(i, v)]) (hrefs h), Did true)
  (** wavelet_buffer_view.cc:25-31 *)
  | OViewDecompose n data den =>
      let* w := rd (hviews h) n in
      let* a := cell_of h (fst w) in let* b := load h a in
      let* r := view_decompose (snd w) b data den in
      let* h2 := save h a (snd r) in Ok (h2, Did (fst r))
  (** wavelet_buffer_view.cc:44-55, 96-98 *)
  | OViewCast mem n =>
      let* w := rd (hviews h) n in
      let* b := deref h (fst w) in construct h mem (view_cast (snd w) b)
  (** wavelet_buffer.cc:346-348 operator[]: a reference into the Impl *)
  | ORef i ch =>
      let* a := cell_of h i in let* b := load h a in
      let* _ := rd (bdec b) ch in
      Ok (Heap (hcells h) (hobjs h) (hviews h) (hrefs h ++ [(a, ch)]), Did true)
  (** assignment through that reference *)
  | ORefWrite n sub =>
      let* q := rd (hrefs h) n in
      let* b := load h (fst q) in
      let* d := wr (bdec b) (snd q) sub in
      let* h2 := save h (fst q) (Buffer (bpar b) d) in Ok (h2, Did true)
  end.

(** a history: the outcomes in order *)
Fixpoint run (h : heap) (l : list op) : res (heap * list outcome) :=
  match l with
  | [] => Ok (h, [])
  | o :: t => let* r := step h o in let* r' := run (fst r) t in Ok (fst r', snd r :: snd r')
  end.
End Object.
Arguments heap : clear implicits.
Arguments outcome : clear implicits.
Arguments op : clear implicits.
