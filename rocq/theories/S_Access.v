(** * S_Access: what the list of memory accesses of a step has to contain *)
Require Import List Bool Arith ZArith.
Require Import Verif.M_Base Verif.M_Params Verif.M_Cache.
Import ListNotations.

Section S.
Context {V : Type}.

(** The value of a node of cache_ or (true) trans_cache_ *)
Definition node_value (w : @world V) (trans : bool) (a : nat) : option V :=
  nth_error (if trans then wtcells w else wcells w) a.

(** Two worlds have the same contents at a place; the map objects know their
    keys, their nodes and where the next node goes *)
Definition same_at (x : place) (w1 w2 : @world V) : Prop :=
  match x with
  | PlainMap => wplain w1 = wplain w2 /\ length (wcells w1) = length (wcells w2)
  | TransMap => wtrans w1 = wtrans w2 /\ length (wtcells w1) = length (wtcells w2)
  | Cell trans a => node_value w1 trans a = node_value w2 trans a
  end.
End S.
