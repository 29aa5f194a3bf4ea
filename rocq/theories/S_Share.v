(** * S_Share: what threads sharing buffers should do.

    Nothing here mentions the programs, accesses or steps of M_Share: the
    calls are those of M_Buffer and M_View, each done in one piece. *)
Require Import List Bool Arith ZArith.
Require Import Verif.M_Base Verif.M_Params Verif.M_Buffer Verif.M_View Verif.M_Share.
Import ListNotations.
Open Scope nat_scope.

Section Spec.
Context {T : Type} {A : Arith T}.

(** one call on its own *)
Definition do_call (m : mem T) (c : call T) : res (answer T * mem T) :=
  match c with
  | CDecompose i data den =>
      let* b := rd m i in
      let* r := decompose b data den in
      let* m' := wr m i (snd r) in Ok (Did (fst r), m')
  | CViewDecompose i v data den =>
      let* b := rd m i in
      let* r := view_decompose v b data den in
      let* m' := wr m i (snd r) in Ok (Did (fst r), m')
  | CCompose i sf =>
      let* b := rd m i in
      let* r := compose b sf in Ok (Composed (fst r) (Some (snd r)), m)
  | CViewCompose i v sf =>
      let* b := rd m i in
      let* r := view_compose v b sf in Ok (Composed (fst r) (snd r), m)
  | CCopy i => let* b := rd m i in Ok (Copied b, m)
  end.
(** the calls of one thread in order *)
Fixpoint do_calls (m : mem T) (cs : list (call T)) : res (list (answer T) * mem T) :=
  match cs with
  | [] => Ok ([], m)
  | c :: cs' =>
      let* r := do_call m c in
      let* s := do_calls (snd r) cs' in Ok (fst r :: fst s, snd s)
  end.
(** the threads one after the other *)
Fixpoint do_threads (m : mem T) (plans : list (list (call T))) : res (list (list (answer T)) * mem T) :=
  match plans with
  | [] => Ok ([], m)
  | cs :: rest =>
      let* r := do_calls m cs in
      let* s := do_threads (snd r) rest in Ok (fst r :: fst s, snd s)
  end.

(** the channels a call may write, and those it may read *)
Definition writes (c : call T) (i ch : nat) : Prop :=
  match c with
  | CDecompose j _ _ => i = j
  | CViewDecompose j v _ _ => i = j /\ (vstart v <= Z.of_nat ch < vstart v + vcount v)%Z
  | CCompose _ _ | CViewCompose _ _ _ | CCopy _ => False
  end.
Definition reads (c : call T) (i ch : nat) : Prop :=
  match c with
  | CDecompose _ _ _ | CViewDecompose _ _ _ _ => False
  | CCompose j _ => i = j
  | CViewCompose j v _ => i = j /\ (vstart v <= Z.of_nat ch < vstart v + vcount v)%Z
  | CCopy j => i = j
  end.
(** no channel that c writes is used by c' *)
Definition spares (c c' : call T) : Prop :=
  forall i ch, writes c i ch -> ~ writes c' i ch /\ ~ reads c' i ch.
(** calls of different threads do not get in each other's way *)
Definition apart (plans : list (list (call T))) : Prop :=
  forall t t' cs cs', t <> t' -> nth_error plans t = Some cs -> nth_error plans t' = Some cs' ->
  forall c c', In c cs -> In c' cs' -> spares c c'.

(** a data race: two threads about to access one subband, one of them writing *)
Definition race (w : world T) : Prop :=
  exists t t' th th' l b, t <> t' /\
    nth_error (threads w) t = Some th /\ nth_error (threads w) t' = Some th' /\
    next_access th = Some (l, true) /\ next_access th' = Some (l, b).
Definition all_finished (w : world T) : Prop := forall th, In th (threads w) -> finished th = true.
(** number of times a schedule makes some thread move *)
Fixpoint moves (sched : list nat) (w : world T) : nat :=
  match sched with
  | [] => 0
  | t :: s => match step w t with Some w' => S (moves s w') | None => moves s w end
  end.

(** Sharing out the channels of buffer i: thread k decomposes the k-th group
    of signals into its own channels and composes them again. *)
Fixpoint shares (i : nat) (den : denoiser T) (sf : Z) (off : nat) (groups : list (list (mat T))) : list (list (call T)) :=
  match groups with
  | [] => []
  | d :: rest =>
      let v := View (Z.of_nat off) (Z.of_nat (length d)) true in
      [CViewDecompose i v d den; CViewCompose i v sf] :: shares i den sf (off + length d) rest
  end.
End Spec.
