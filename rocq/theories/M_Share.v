(** * M_Share: threads that share WaveletBuffers.

    The calls of M_Buffer and M_View once more, as programs that read and
    write the subbands of shared buffers one at a time.  Between two accesses
    of a thread the others may do anything.  The wavelet matrices come from
    the cache: M_Cache has its locking, and C38 that every call obtains the
    freshly generated matrices, so here they are generated. *)
Require Import List Bool Arith ZArith.
Require Import Verif.M_Base Verif.M_Params Verif.M_Padding Verif.M_Wavelet Verif.M_Buffer Verif.M_View.
Import ListNotations.
Open Scope nat_scope.

Section Threads.
Context {T : Type} {A : Arith T}.

(** the shared buffers *)
Definition mem := list (buffer T).
(** one subband: buffer, channel, subband *)
Record loc := Loc { lbuf : nat; lch : nat; lsub : nat }.
Definition get (m : mem) (l : loc) : res (mat T) :=
  let* b := rd m (lbuf l) in let* ch := rd (bdec b) (lch l) in rd ch (lsub l).
Definition size (m : mem) (i c : nat) : res nat :=
  let* b := rd m i in let* ch := rd (bdec b) c in Ok (length ch).
Definition put (m : mem) (l : loc) (x : mat T) : res mem :=
  let* b := rd m (lbuf l) in let* ch := rd (bdec b) (lch l) in
  let* ch' := wr ch (lsub l) x in let* d := wr (bdec b) (lch l) ch' in
  wr m (lbuf l) (Buffer (bpar b) d).

(** A program of one thread: local computation between accesses.
    [Head]: reads the parameters and the number of channels of a buffer,
    [Size]: the number of subbands of a channel (no call changes either);
    [Get], [Put]: one subband. *)
Inductive prog (X : Type) :=
| Stop (r : res X)
| Head (i : nat) (k : params -> nat -> prog X)
| Size (i c : nat) (k : nat -> prog X)
| Get (l : loc) (k : mat T -> prog X)
| Put (l : loc) (x : mat T) (k : prog X).
Arguments Stop {X}.
Arguments Head {X}.
Arguments Size {X}.
Arguments Get {X}.
Arguments Put {X}.

Fixpoint then_ {X Y} (a : prog X) (f : X -> prog Y) : prog Y :=
  match a with
  | Stop (Ok x) => f x
  | Stop Throw => Stop Throw
  | Stop UB => Stop UB
  | Head i k => Head i (fun p n => then_ (k p n) f)
  | Size i c k => Size i c (fun n => then_ (k n) f)
  | Get l k => Get l (fun x => then_ (k x) f)
  | Put l x k => Put l x (then_ k f)
  end.
Notation "'do*' x := a 'in' b" := (then_ a (fun x => b)) (at level 200, x name, a at level 100, b at level 200).
(** local computation *)
Notation "'let_' x := a 'in' b" := (then_ (Stop a) (fun x => b)) (at level 200, x name, a at level 100, b at level 200).
Definition ret {X} (x : X) : prog X := Stop (Ok x).

Fixpoint ploop {S} (n start : nat) (body : nat -> S -> prog S) (s : S) : prog S :=
  match n with
  | O => ret s
  | Datatypes.S n' => do* s' := body start s in ploop n' (Datatypes.S start) body s'
  end.
Fixpoint pmap {X Y} (f : X -> prog Y) (l : list X) : prog (list Y) :=
  match l with
  | [] => ret []
  | a :: t => do* b := f a in do* t' := pmap f t in ret (b :: t')
  end.

(** [*(dest + k) = s_k]: wavelet_utils.cc:178-180, 203 *)
Fixpoint pstore (i c off : nat) (l : list (mat T)) : prog unit :=
  match l with
  | [] => ret tt
  | s :: t => Put (Loc i c off) s (pstore i c (S off) t)
  end.
(** wavelet_utils.cc:277-294, see M_Buffer.decompose_channel *)
Definition pdecompose_channel (i c : nat) (p : params) (den : denoiser T) (padded : list Z)
  (mats : nat -> res (list (smat T))) (data : mat T) : prog unit :=
  let_ channel := add_padding data padded in
  let n := Z.to_nat (steps p) in
  do* low := ploop n 0 (fun step channel =>
      let_ wm := mats step in
      let_ r := one_side_step (dimension p) den wm channel step in
      do* _ := pstore i c (step * spw p) (fst r) in ret (snd r)) channel in
  Put (Loc i c (n * spw p)) low (ret tt).
(** wavelet_utils.cc:233-297 DecomposeImpl, see M_Buffer.decompose_impl *)
Definition pdecompose_impl (i : nat) (p : params) (data : list (mat T)) (den : denoiser T) (start count : nat) : prog bool :=
  let_ ok := shape_ok p data (Z.of_nat count) in
  if negb ok then ret false
  else
    let_ padded := calc_padded (wtype p) (shape p) (steps p) in
    let_ stack := if dimension p =? 2 then gen_matrices padded p else Ok [] in
    let_ dmat := analysis_mat (wtype p) in
    let mats step := if dimension p =? 1 then Ok [dmat] else rd stack step in
    do* _ := ploop count start (fun ch _ =>
        let_ d := rd data (ch - start) in
        pdecompose_channel i ch p den padded mats d) tt in
    ret true.

(** wavelet_utils.cc:341-359 ComposeStep *)
Definition pcompose_step (i c : nat) (dim : nat) (low : mat T) (src : nat) (wm : list (smat T)) : prog (mat T) :=
  if dim =? 1 then
    let_ _ := guard (1 <=? src) in
    Get (Loc i c (src - 1)) (fun high =>
    let_ lc := mcol low 0 in
    let_ hc := mcol high 0 in
    let_ w0 := rd wm 0 in
    let_ r := idwt lc hc w0 in
    ret (mcolvec r))
  else
    let_ _ := guard (3 <=? src) in
    Get (Loc i c (src - 3)) (fun lh =>
    Get (Loc i c (src - 2)) (fun hl =>
    Get (Loc i c (src - 1)) (fun hh =>
    let_ w0 := rd wm 0 in
    let_ w1 := rd wm 1 in
    Stop (idwt2 low lh hl hh w0 w1)))).
(** wavelet_utils.cc:390: the channel is copied subband by subband *)
Definition pcopy_channel (i c : nat) : prog (decomposition T) :=
  Size i c (fun n => pmap (fun s => Get (Loc i c s) ret) (seq 0 n)).
(** wavelet_utils.cc:387-409 *)
Definition pcompose_channel (i c : nat) (p : params) (mats : nat -> res (list (smat T))) (k : nat) : prog (decomposition T) :=
  do* sub := pcopy_channel i c in
  let n := Z.to_nat (steps p) in
  Get (Loc i c (n * spw p)) (fun deepest =>
  do* channel := ploop (n - k) 0 (fun it channel =>
    let j := n - it in
    let_ wm := mats (j - 1) in
    pcompose_step i c (dimension p) channel (j * spw p) wm) deepest in
  let sub' := resize_dec sub (k * spw p + 1) in
  Stop (wr sub' (length sub' - 1) channel)).
(** wavelet_utils.cc:361-440 ComposeImpl *)
Definition pcompose_impl (i : nat) (p : params) (k start count : nat) : prog (list (mat T)) :=
  let_ stack := if dimension p =? 2
                then let* padded := calc_padded (wtype p) (shape p) (steps p) in gen_trans_matrices padded p
                else Ok [] in
  let_ dmat := synthesis_mat (wtype p) in
  let mats i := if dimension p =? 1 then Ok [dmat] else rd stack i in
  do* subbands := pmap (fun sub_index => pcompose_channel i (start + sub_index) p mats k) (seq 0 count) in
  let scaled := map (fun x => (x / 2 ^ Z.of_nat k)%Z) (shape p) in
  Stop (mapM (fun sub =>
      let* aprox := rd sub (length sub - 1) in
      let* aprox := crop_padding aprox scaled in
      Ok (if 0 <? k
          then Mat (rows aprox) (cols aprox) (map (ascale (dimension p) k) (elts aprox))
          else aprox)) subbands).

(** the calls and what they answer *)
Inductive call :=
| CDecompose (i : nat) (data : list (mat T)) (den : denoiser T)
| CViewDecompose (i : nat) (v : view) (data : list (mat T)) (den : denoiser T)
| CCompose (i : nat) (sf : Z)
| CViewCompose (i : nat) (v : view) (sf : Z)
| CCopy (i : nat).
Inductive answer := Did (ok : bool) | Composed (ok : bool) (o : option (list (mat T))) | Copied (b : buffer T).

Definition prog_of (c : call) : prog answer :=
  match c with
  (** wavelet_buffer.cc:96-100 *)
  | CDecompose i data den => Head i (fun p _ =>
      do* ok := pdecompose_impl i p data den 0 (Z.to_nat (signum p)) in ret (Did ok))
  (** wavelet_buffer_view.cc:25-31; check_range looks at the parameters only *)
  | CViewDecompose i v data den => Head i (fun p _ =>
      let_ ok := check_range v (Buffer (T := T) p []) in
      if negb ok then ret (Did false)
      else
        let_ _ := guard (vmutable v) in
        if odd_range v then let_ ok := shape_ok p data (wrap64 (vcount v)) in ret (Did ok)
        else do* ok := pdecompose_impl i p data den (Z.to_nat (vstart v)) (Z.to_nat (vcount v)) in ret (Did ok))
  (** wavelet_buffer.cc:121-124 *)
  | CCompose i sf => Head i (fun p _ =>
      let_ k := scale_arg sf in
      do* r := pcompose_impl i p k 0 (Z.to_nat (signum p)) in ret (Composed true (Some r)))
  (** wavelet_buffer_view.cc:33-38 *)
  | CViewCompose i v sf => Head i (fun p _ =>
      let_ ok := check_range v (Buffer (T := T) p []) in
      if negb ok then ret (Composed false None)
      else
        let_ k := scale_arg sf in
        if (vcount v <? 0)%Z then Stop Throw
        else if ((vstart v <? 0) && (0 <? vcount v))%Z then Stop UB
        else do* r := pcompose_impl i p k (Z.to_nat (vstart v)) (Z.to_nat (vcount v)) in ret (Composed true (Some r)))
  (** wavelet_buffer.cc:310-311 copy constructor; likewise every function that
      only looks at a buffer *)
  | CCopy i => Head i (fun p n =>
      do* d := pmap (pcopy_channel i) (seq 0 n) in ret (Copied (Buffer p d)))
  end.

(** A thread: the rest of the call it is in (if any), the calls after it, the
    answers so far. *)
Record thread := Thread { now : option (prog answer); todo : list call; answers : list (res answer) }.
Record world := World { wmem : mem; threads : list thread }.
Definition finished (th : thread) : bool :=
  match now th, todo th with None, [] => true | _, _ => false end.

(** an access that fails ends the call with that failure *)
Definition access {X} (r : res X) (k : X -> prog answer) : prog answer :=
  match r with Ok x => k x | Throw => Stop Throw | UB => Stop UB end.
(** One step of a thread: the start of its next call, one access, or the end
    of a call; [None]: nothing left to do *)
Definition tstep (m : mem) (th : thread) : option (mem * thread) :=
  let goes a := Thread (Some a) (todo th) (answers th) in
  match now th with
  | None =>
      match todo th with
      | [] => None
      | c :: cs => Some (m, Thread (Some (prog_of c)) cs (answers th))
      end
  | Some (Stop r) => Some (m, Thread None (todo th) (answers th ++ [r]))
  | Some (Head i k) => Some (m, goes (access (rd m i) (fun b => k (bpar b) (length (bdec b)))))
  | Some (Size i c k) => Some (m, goes (access (size m i c) k))
  | Some (Get l k) => Some (m, goes (access (get m l) k))
  | Some (Put l x k) =>
      match put m l x with
      | Ok m' => Some (m', goes k)
      | Throw => Some (m, goes (Stop Throw))
      | UB => Some (m, goes (Stop UB))
      end
  end.
Definition step (w : world) (t : nat) : option world :=
  match nth_error (threads w) t with
  | None => None
  | Some th =>
      match tstep (wmem w) th with
      | None => None
      | Some (m, th') => Some (World m (upd (threads w) t th'))
      end
  end.
(** a schedule: a list of thread numbers; one that cannot move is skipped *)
Fixpoint run (sched : list nat) (w : world) : world :=
  match sched with
  | [] => w
  | t :: s => run s (match step w t with Some w' => w' | None => w end)
  end.
(** the threads, each with its calls, before any of them starts *)
Definition start (m : mem) (plans : list (list call)) : world :=
  World m (map (fun cs => Thread None cs []) plans).

(** the subband a thread's next step accesses; [true] = writes *)
Definition next_access (th : thread) : option (loc * bool) :=
  match now th with
  | Some (Get l _) => Some (l, false)
  | Some (Put l _ _) => Some (l, true)
  | _ => None
  end.
End Threads.
Arguments mem : clear implicits.
Arguments prog : clear implicits.
Arguments call : clear implicits.
Arguments answer : clear implicits.
Arguments thread : clear implicits.
Arguments world : clear implicits.
Arguments Stop {T X}.
Arguments Head {T X}.
Arguments Size {T X}.
Arguments Get {T X}.
Arguments Put {T X}.
