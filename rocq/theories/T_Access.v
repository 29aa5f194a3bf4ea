(** * T_Access: property C38, the accesses of a step are all listed *)
Require Import List Bool Arith ZArith.
Require Import Verif.M_Base Verif.M_Params Verif.M_Cache Verif.S_Cache Verif.S_Access Verif.P_Access.
Require Import Verif.T_Cache.
Import ListNotations.
Open Scope nat_scope.

(** "No race" of C38_concurrent is about the accesses listed by [touches].
    Nothing is missing there: a step changes only the places it lists as
    written ... *)
Theorem C38_writes_listed (V : Type) (gen : params -> res V) (tr : V -> V) (w w' : @world V) t :
  step gen tr w t = Some w' ->
  (wplain w' <> wplain w -> In (PlainMap, true) (touches w t)) /\
  (wtrans w' <> wtrans w -> In (TransMap, true) (touches w t)) /\
  (forall trans a, node_value w' trans a <> node_value w trans a -> In (Cell trans a, true) (touches w t)).
Proof. exact (writes_listed gen tr w w' t). Qed.
Print Assumptions C38_writes_listed.

(** ... and what it does (to its thread, to the mutexes and to the places it
    writes) depends on no other place than those listed. *)
Theorem C38_reads_listed (V : Type) (gen : params -> res V) (tr : V -> V) (w w' w2 : @world V) t :
  step gen tr w t = Some w' ->
  threads w2 = threads w -> mutex w2 = mutex w -> trans_mutex w2 = trans_mutex w ->
  (forall x b, In (x, b) (touches w t) -> same_at x w w2) ->
  exists w2', step gen tr w2 t = Some w2' /\ nth_error (threads w2') t = nth_error (threads w') t /\
    mutex w2' = mutex w' /\ trans_mutex w2' = trans_mutex w' /\
    (forall x, In (x, true) (touches w t) -> same_at x w' w2').
Proof. exact (reads_listed gen tr w w' w2 t). Qed.
Print Assumptions C38_reads_listed.

(** a thread that is about to insert: two places are written, in a world whose
    other map is different too *)
Definition inserting (n : list nat) : @world nat :=
  World [] Leaf n Leaf (Some 0) None [Thread [] (PInsert false p1 5) []].
Example C38_accesses_case : exists w', step (fun _ => Ok 5) S (inserting []) 0 = Some w' /\
  wplain w' <> wplain (inserting []) /\ node_value w' false 0 <> node_value (inserting []) false 0 /\
  inserting [7] <> inserting [] /\
  (forall x b, In (x, b) (touches (inserting []) 0) -> same_at x (inserting []) (inserting [7])).
Proof.
  eexists. split; [reflexivity|]. split; [discriminate|]. split; [discriminate|]. split; [discriminate|].
  intros x b [H|[H|[]]]; inversion H; subst; cbn; auto.
Qed.
