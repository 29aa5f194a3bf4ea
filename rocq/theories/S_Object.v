(** * S_Object: WaveletBuffer objects as values. *)
Require Import List Bool Arith ZArith.
Require Import Verif.M_Base Verif.M_Params Verif.M_Buffer Verif.M_View Verif.M_Object.
Import ListNotations.
Open Scope nat_scope.

Section Object.
Context {T : Type} {A : Arith T}.

(** an object after its destructor, after its contents were moved away, or with contents *)
Inductive slot := Gone | Hollow | Full (b : buffer T).
(** a reference belongs to the object whose contents it shows, or to nobody
    once these are gone *)
Record world := World {
  slots : list slot;
  views : list (nat * view);
  owners : list (option nat * nat)
}.
Definition empty_world : world := World [] [] [].

Definition alive (w : world) (i : nat) : res unit :=
  let* s := rd (slots w) i in match s with Gone => UB | _ => Ok tt end.
Definition content (w : world) (i : nat) : res (buffer T) :=
  let* s := rd (slots w) i in match s with Full b => Ok b | _ => UB end.
Definition put (w : world) (i : nat) (s : slot) : world := World (upd (slots w) i s) (views w) (owners w).
(** references of object i now belong to j, or to nobody *)
Definition rebind (w : world) (i : nat) (j : option nat) : world :=
  World (slots w) (views w)
    (map (fun q => if match fst q with Some k => k =? i | None => false end then (j, snd q) else q) (owners w)).
Definition create (w : world) (mem : bool) (r : res (buffer T)) : res (world * outcome T) :=
  match r with
  | UB => UB
  | Throw => Ok (w, Raised)
  | Ok b => if mem then Ok (World (slots w ++ [Full b]) (views w) (owners w), Did true) else Ok (w, Raised)
  end.

(** the same operations, on values *)
Definition sstep (w : world) (o : op T) : res (world * outcome T) :=
  match o with
  | ONew mem p => create w mem (new_buffer p)
  | ONewWith mem p d => create w mem (new_buffer_with p d)
  | OCopy mem i => let* b := content w i in create w mem (Ok b)
  | OMove i =>
      let* s := rd (slots w) i in
      match s with
      | Gone => UB
      | _ => Ok (rebind (World (upd (slots w) i Hollow ++ [s]) (views w) (owners w)) i (Some (length (slots w))), Did true)
      end
  | OAssign mem i j =>
      let* _ := alive w i in
      let* b := content w j in
      if mem then Ok (rebind (put w i (Full b)) i None, Did true) else Ok (w, Raised)
  | OMoveAssign i j =>
      let* _ := alive w i in
      let* s := rd (slots w) j in
      match s with
      | Gone => UB
      | _ => if i =? j then Ok (w, Did true)
             else Ok (rebind (rebind (put (put w j Hollow) i s) i None) j (Some i), Did true)
      end
  | ODestroy i => let* _ := alive w i in Ok (rebind (put w i Gone) i None, Did true)
  | ODecompose i data den =>
      let* b := content w i in
      let* r := decompose b data den in Ok (put w i (Full (snd r)), Did (fst r))
  | OLook i => let* b := content w i in Ok (w, Saw b)
  | OView i v => let* _ := alive w i in Ok (World (slots w) (views w ++ [(i, v)]) (owners w), Did true)
  | OViewDecompose n data den =>
      let* q := rd (views w) n in
      let* b := content w (fst q) in
      let* r := view_decompose (snd q) b data den in Ok (put w (fst q) (Full (snd r)), Did (fst r))
  | OViewCast mem n =>
      let* q := rd (views w) n in
      let* b := content w (fst q) in create w mem (view_cast (snd q) b)
  | ORef i ch =>
      let* b := content w i in
      let* _ := rd (bdec b) ch in
      Ok (World (slots w) (views w) (owners w ++ [(Some i, ch)]), Did true)
  | ORefWrite n sub =>
      let* q := rd (owners w) n in
      match fst q with
      | None => UB
      | Some i =>
          let* b := content w i in
          let* d := wr (bdec b) (snd q) sub in
          Ok (put w i (Full (Buffer (bpar b) d)), Did true)
      end
  end.
Fixpoint srun (w : world) (l : list (op T)) : res (world * list (outcome T)) :=
  match l with
  | [] => Ok (w, [])
  | o :: t => let* r := sstep w o in let* r' := srun (fst r) t in Ok (fst r', snd r :: snd r')
  end.

(** what object i holds in memory *)
Definition holds (h : heap T) (i : nat) : option slot :=
  match nth_error (hobjs h) i with
  | None => None
  | Some None => Some Gone
  | Some (Some None) => Some Hollow
  | Some (Some (Some a)) =>
      match nth_error (hcells h) a with Some (Some b) => Some (Full b) | _ => None end
  end.
(** object i owns cell a *)
Definition owns (h : heap T) (i a : nat) : Prop := nth_error (hobjs h) i = Some (Some (Some a)).
(** operation o may change what object i holds: it names the object, a view
    of it or a reference into it *)
Definition touches (w : world) (o : op T) (i : nat) : Prop :=
  match o with
  | ONew _ _ | ONewWith _ _ _ | OCopy _ _ | OLook _ | OView _ _ | OViewCast _ _ | ORef _ _ => False
  | OMove k | OAssign _ k _ | ODestroy k | ODecompose k _ _ => k = i
  | OMoveAssign k j => k = i \/ j = i
  | OViewDecompose n _ _ => exists v, nth_error (views w) n = Some (i, v)
  | ORefWrite n _ => exists ch, nth_error (owners w) n = Some (Some i, ch)
  end.
(** no operation of the history touches object i *)
Fixpoint quiet (w : world) (l : list (op T)) (i : nat) : Prop :=
  match l with
  | [] => True
  | o :: t => ~ touches w o i /\ match sstep w o with Ok (w', _) => quiet w' t i | _ => True end
  end.
(** the two places a program can be in after the history [l] *)
Definition reached (l : list (op T)) (h : heap T) (w : world) : Prop :=
  exists os, run empty_heap l = Ok (h, os) /\ srun empty_world l = Ok (w, os).
End Object.
Arguments slot : clear implicits.
Arguments world : clear implicits.
