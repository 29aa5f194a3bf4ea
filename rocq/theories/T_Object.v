(** * T_Object: property C115, WaveletBuffer objects copied, moved, assigned
    and destroyed in any order, with views and references into them *)
Require Import List Bool Arith ZArith Lia.
Require Import Verif.M_Base Verif.M_Params Verif.M_Buffer Verif.M_View Verif.M_Object Verif.S_Object.
Require Import Verif.P_Base Verif.P_Api2 Verif.P_Object Verif.P_Object2.
Import ListNotations.
Open Scope nat_scope.

(** ** objects are values: every history on the heap ends as the same history
    on plain values, with the same results and the same misuses (use of a
    destroyed or moved-from object, of a dead reference), and never by a second
    deletion or a read of a deleted Impl *)
Theorem C115_values (T : Type) (A : Arith T) (l : list (op T)) :
  match run empty_heap l, srun empty_world l with
  | Ok (h, os), Ok (w, os') => os = os' /\ forall i, holds h i = nth_error (slots w) i
  | Throw, Throw => True
  | UB, UB => True
  | _, _ => False
  end.
Proof.
  pose proof (run_ok l empty_heap empty_world empty_ok) as H.
  destruct (run empty_heap l) as [[h os]| |], (srun empty_world l) as [[w os']| |]; auto.
  destruct H as [E K]. split; [exact E|]. intros i. apply ok_holds. exact K.
Qed.
Print Assumptions C115_values.
(** ** memory: every undeleted Impl belongs to exactly one object, every object
    with contents has an undeleted one; when no object has contents any more,
    nothing is left *)
Theorem C115_memory (T : Type) (A : Arith T) (l : list (op T)) h os : run empty_heap l = Ok (h, os) ->
  (forall i j a, owns h i a -> owns h j a -> i = j) /\
  (forall i a, owns h i a -> exists b, nth_error (hcells h) a = Some (Some b) /\ holds h i = Some (Full b)) /\
  (forall a b, nth_error (hcells h) a = Some (Some b) -> exists i, owns h i a) /\
  ((forall i b, holds h i <> Some (Full b)) -> forall a b, nth_error (hcells h) a <> Some (Some b)).
Proof. intros E. destruct (run_reached l h os E) as (w & R). exact (memory h w (reached_ok l h w R)). Qed.
Print Assumptions C115_memory.
(** ** an exception (refused parameters or decompositions, no memory) leaves every object as it was *)
Theorem C115_exception (T : Type) (A : Arith T) (h h' : heap T) o : step h o = Ok (h', Raised) -> h' = h.
Proof. exact (raised h h' o). Qed.
Print Assumptions C115_exception.
(** ** what an object holds stays through any further history that does not
    name it, a view of it or a reference into it *)
Theorem C115_independent (T : Type) (A : Arith T) (l l' : list (op T)) h w h' os i :
  reached l h w -> run h l' = Ok (h', os) -> quiet w l' i -> i < length (hobjs h) -> holds h' i = holds h i.
Proof. intros R. exact (quiet_run l' h h' w os i (reached_ok l h w R)). Qed.
Print Assumptions C115_independent.
(** ** copy construction and assignment: equal contents, in an Impl of its own;
    assigning an object to itself keeps them *)
Theorem C115_copy (T : Type) (A : Arith T) (l : list (op T)) h os i b :
  run empty_heap l = Ok (h, os) -> holds h i = Some (Full b) ->
  exists h', step h (OCopy true i) = Ok (h', Did true) /\ holds h' (length (hobjs h)) = Some (Full b) /\ holds h' i = Some (Full b) /\
    forall a, owns h' (length (hobjs h)) a -> nth_error (hcells h) a = None.
Proof. intros E. destruct (run_reached l h os E) as (w & R). exact (copy_new h w i b (reached_ok l h w R)). Qed.
Print Assumptions C115_copy.
Theorem C115_assign (T : Type) (A : Arith T) (l : list (op T)) h os i j b s :
  run empty_heap l = Ok (h, os) -> holds h i = Some s -> s <> Gone -> holds h j = Some (Full b) ->
  exists h', step h (OAssign true i j) = Ok (h', Did true) /\ holds h' i = Some (Full b) /\ forall k, k <> i -> holds h' k = holds h k.
Proof. intros E. destruct (run_reached l h os E) as (w & R). exact (assigned h w i j b s (reached_ok l h w R)). Qed.
Print Assumptions C115_assign.
(** ** moving: the contents change hands; moving an object onto itself keeps them;
    a moved-from object can be assigned and destroyed *)
Theorem C115_move (T : Type) (A : Arith T) (l : list (op T)) h os i j si sj :
  run empty_heap l = Ok (h, os) -> holds h i = Some si -> si <> Gone -> holds h j = Some sj -> sj <> Gone ->
  (exists h', step h (OMove i) = Ok (h', Did true) /\ holds h' (length (hobjs h)) = Some si /\ holds h' i = Some Hollow /\
     hcells h' = hcells h /\ forall k, k <> i -> k < length (hobjs h) -> holds h' k = holds h k) /\
  (exists h', step h (OMoveAssign i j) = Ok (h', Did true) /\ holds h' i = Some sj /\ (i <> j -> holds h' j = Some Hollow) /\
     forall k, k <> i -> k <> j -> holds h' k = holds h k) /\
  (exists h', step h (ODestroy i) = Ok (h', Did true) /\ holds h' i = Some Gone /\ forall k, k <> i -> holds h' k = holds h k).
Proof.
  intros E HI NI HJ NJ. destruct (run_reached l h os E) as (w & R). pose proof (reached_ok l h w R) as K. split; [|split].
  - exact (moved h w i si K HI NI).
  - destruct (move_assigned h w i j si sj K HI NI HJ NJ) as (h' & H1 & H2 & H3 & H4 & _). exists h'. auto.
  - destruct (destroyed h w i si K HI NI) as (h' & H1 & H2 & H3 & _). exists h'. auto.
Qed.
Print Assumptions C115_move.
(** ** std::swap exchanges the contents, copies nothing and allocates nothing;
    also of an object with itself *)
Theorem C115_swap (T : Type) (A : Arith T) (l : list (op T)) h os i j si sj :
  run empty_heap l = Ok (h, os) -> holds h i = Some si -> si <> Gone -> holds h j = Some sj -> sj <> Gone ->
  let n := length (hobjs h) in
  exists h', run h [OMove i; OMoveAssign i j; OMoveAssign j n; ODestroy n] = Ok (h', [Did true; Did true; Did true; Did true]) /\
    holds h' i = Some sj /\ holds h' j = Some si /\ hcells h' = hcells h /\
    forall k, k <> i -> k <> j -> k < n -> holds h' k = holds h k.
Proof. intros E HI NI HJ NJ n. destruct (run_reached l h os E) as (w & R). exact (swapped h w i j si sj (reached_ok l h w R) HI NI HJ NJ). Qed.
Print Assumptions C115_swap.
(** ** a view follows its object: after any further history it shows what the
    object holds then *)
Theorem C115_view (T : Type) (A : Arith T) (l l' : list (op T)) h os h' os' n i v b c :
  run empty_heap l = Ok (h, os) -> nth_error (hviews h) n = Some (i, v) ->
  run h l' = Ok (h', os') -> holds h' i = Some (Full b) -> view_cast v b = Ok c ->
  exists h'', step h' (OViewCast true n) = Ok (h'', Did true) /\ holds h'' (length (hobjs h')) = Some (Full c) /\
    forall k, k < length (hobjs h') -> holds h'' k = holds h' k.
Proof.
  intros E HV E' HB HC. assert (E2 : run empty_heap (l ++ l') = Ok (h', os ++ os')) by (rewrite run_app, E; cbn [bind fst snd]; rewrite E'; reflexivity).
  destruct (run_reached _ _ _ E2) as (w & R). exact (view_follows h' w n i v b c (reached_ok _ _ _ R) (views_kept l' h h' os' n (i, v) E' HV) HB HC).
Qed.
Print Assumptions C115_view.
(** ** a reference to a channel follows the contents: into the object they are
    moved to; it is dead once they are assigned over or destroyed *)
Theorem C115_reference (T : Type) (A : Arith T) (l : list (op T)) h os h1 i b ch x sub :
  run empty_heap l = Ok (h, os) -> holds h i = Some (Full b) -> nth_error (bdec b) ch = Some x -> step h (ORef i ch) = Ok (h1, Did true) ->
  let n := length (hrefs h) in
  let changed := Full (Buffer (bpar b) (upd (bdec b) ch sub)) in
  (exists h2, step h1 (ORefWrite n sub) = Ok (h2, Did true) /\ holds h2 i = Some changed /\ forall k, k <> i -> holds h2 k = holds h k) /\
  (exists h2 h3, step h1 (OMove i) = Ok (h2, Did true) /\ step h2 (ORefWrite n sub) = Ok (h3, Did true) /\
     holds h3 (length (hobjs h)) = Some changed /\ holds h3 i = Some Hollow) /\
  (forall j h2, step h1 (OAssign true i j) = Ok (h2, Did true) -> step h2 (ORefWrite n sub) = UB) /\
  (forall j h2, i <> j -> step h1 (OMoveAssign i j) = Ok (h2, Did true) -> step h2 (ORefWrite n sub) = UB) /\
  (forall h2, step h1 (ODestroy i) = Ok (h2, Did true) -> step h2 (ORefWrite n sub) = UB).
Proof.
  intros E HB HX E1 n changed. destruct (run_reached l h os E) as (w & R). exact (references h h1 w i b ch x sub (reached_ok l h w R) HB HX E1).
Qed.
Print Assumptions C115_reference.

(** two buffers; a copy of the first, a view of the second, a reference into
    the first, which then is moved into the second *)
Definition ex_ops : list (op Z) :=
  let p := Params [2]%Z 2 1 1 in
  [ONewWith true p [[mcolvec [1%Z]; mcolvec [2%Z]]; [mcolvec [3%Z]; mcolvec [4%Z]]];
   ONewWith true p [[mcolvec [5%Z]; mcolvec [6%Z]]; [mcolvec [7%Z]; mcolvec [8%Z]]];
   ONew false p; ONew true (Params []%Z 1 1 1);
   OCopy true 0; OView 1 (View 1 1 true); ORef 0 1; OMoveAssign 1 0].
Definition ex_buf (a b c d : Z) : buffer Z := Buffer (Params [2]%Z 2 1 1) [[mcolvec [a]; mcolvec [b]]; [mcolvec [c]; mcolvec [d]]].
Definition ex_heap : heap Z := Heap [Some (ex_buf 1 2 3 4); None; Some (ex_buf 1 2 3 4)]%Z [Some None; Some (Some 0); Some (Some 2)] [(1, View 1 1 true)] [(0, 1)].
Example C115_case : run (A := Z_arith) empty_heap ex_ops = Ok (ex_heap, [Did true; Did true; Raised; Raised; Did true; Did true; Did true; Did true]) /\
  holds ex_heap 1 = Some (Full (ex_buf 1 2 3 4)%Z) /\ holds ex_heap 2 = Some (Full (ex_buf 1 2 3 4)%Z) /\ holds ex_heap 0 = Some Hollow /\
  view_cast (View 1 1 true) (ex_buf 1 2 3 4)%Z = Ok (Buffer (Params [2]%Z 1 1 1) [[mcolvec [3%Z]; mcolvec [4%Z]]]) /\
  (exists h', step (A := Z_arith) ex_heap (ORef 2 0) = Ok (h', Did true)) /\
  (exists h', step (A := Z_arith) ex_heap (ORefWrite 0 [mcolvec [9%Z]; mcolvec [4%Z]]) = Ok (h', Did true) /\ holds h' 1 = Some (Full (ex_buf 1 2 9 4)%Z) /\ holds h' 2 = Some (Full (ex_buf 1 2 3 4)%Z)) /\
  step (A := Z_arith) ex_heap (OLook 0) = UB.
Proof.
  assert (G : forall o h r, step (A := Z_arith) ex_heap o = Ok (h, r) -> exists h', step (A := Z_arith) ex_heap o = Ok (h', r)) by eauto.
  do 5 (split; [vm_compute; reflexivity|]). split; [eapply G; vm_compute; reflexivity|].
  split; [|vm_compute; reflexivity].
  match goal with |- exists h', ?s = _ /\ _ => let x := eval vm_compute in s in match x with Ok (?h, _) => exists h end end.
  split; [vm_compute; reflexivity|]. split; reflexivity.
Qed.
Example C115_independent_case : exists w, reached (A := Z_arith) ex_ops ex_heap w /\ quiet (A := Z_arith) w [ORefWrite 0 [mcolvec [9%Z]; mcolvec [4%Z]]; OAssign true 1 2; ODestroy 0] 2.
Proof.
  let x := eval vm_compute in (srun (A := Z_arith) empty_world ex_ops) in match x with Ok (?w, ?os) => exists w; split; [exists os; split; vm_compute; reflexivity|] end.
  lazy. repeat split; try lia; try discriminate. intros (ch & H). discriminate.
Qed.
