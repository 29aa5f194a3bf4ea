(** * T_Cache: properties C37, C38 *)
Require Import List Bool Arith ZArith Lia.
Require Import Verif.M_Base Verif.M_Params Verif.M_Buffer Verif.M_View Verif.M_Cache Verif.S_Cache
  Verif.P_Base Verif.P_Cache Verif.P_Threads Verif.P_Api2.
Import ListNotations.
Open Scope nat_scope.

(** C37: any program gets the same answers as with a library that generates
    its matrices anew for every call. *)
Theorem C37_transparent (T : Type) (A : Arith T) (calls : list (api_call T)) :
  history empty_cache calls = history_fresh calls.
Proof. exact (history_transparent calls). Qed.
Print Assumptions C37_transparent.

(** A program that uses the cache: two sets of parameters that differ in the
    number of steps only, calls repeated, with answers of length 6; the cache
    ends with one entry per set of parameters. *)
Local Existing Instance Z_arith.
Definition p1 := Params [4; 4]%Z 1 1 1.
Definition p2 := Params [4; 4]%Z 1 2 1.
Definition m4 := Mat 4 4 (map Z.of_nat (seq 1 16)).
Definition prog : list (api_call Z) :=
  match @new_buffer Z p1, @new_buffer Z p2 with
  | Ok b1, Ok b2 =>
      match decompose b1 [m4] null_denoiser, decompose b2 [m4] null_denoiser with
      | Ok (_, d1), Ok (_, d2) =>
          [CDecompose b1 [m4] null_denoiser; CDecompose b2 [m4] null_denoiser;
           CDecompose b1 [m4] null_denoiser; CCompose d1 0; CCompose d2 1; CCompose d2 2]
      | _, _ => []
      end
  | _, _ => []
  end.
Fixpoint final (h : cache Z) (cs : list (api_call Z)) : cache Z :=
  match cs with [] => h | c :: cs' => final (fst (cached h c)) cs' end.
Example C37_case : length (history empty_cache prog) = 6 /\
  length (cells (final empty_cache prog)) = 2 /\ length (tcells (final empty_cache prog)) = 2.
Proof. vm_compute. repeat split. Qed.

(** C38: any number of threads, any calls, any schedule [s].  [gen] is the
    generation of the matrices of a set of parameters (it may fail), [tr]
    their transposition. *)
Theorem C38_concurrent (V : Type) (gen : params -> res V) (tr : V -> V)
  (calls : list (list request)) (s : list nat) :
  let w := run gen tr s (start calls) in
  (* no two threads access the same memory at the same time, one writing *)
  ~ race w /\
  (* no deadlock: all have finished, or one can move *)
  ((forall th, In th (threads w) -> finished th) \/ exists t, step gen tr w t <> None) /\
  (* every finished call got the freshly generated matrices, or their failure *)
  (forall th rq r, In th (threads w) -> In (rq, r) (got th) -> r = expected gen tr rq) /\
  (* what a reference points to never changes *)
  (forall s' trans a v, deref w trans (Ok a) = Ok v ->
     deref (run gen tr s' w) trans (Ok a) = Ok v).
Proof. exact (concurrent_ok V gen tr calls s). Qed.
Print Assumptions C38_concurrent.

(** C38: no schedule makes more than 12 steps per call; whatever has been
    scheduled so far, the program can be run to its end; and at the end every
    thread has the results of all its calls, in order. *)
Theorem C38_termination (V : Type) (gen : params -> res V) (tr : V -> V)
  (calls : list (list request)) (s : list nat) :
  moves gen tr s (start calls) <= 12 * length (concat calls) /\
  (exists s', forall th, In th (threads (run gen tr (s ++ s') (start calls))) -> finished th) /\
  ((forall th, In th (threads (run gen tr s (start calls))) -> finished th) ->
   map (fun th => rev (got th)) (threads (run gen tr s (start calls))) =
   map (map (fun rq => (rq, expected gen tr rq))) calls).
Proof. exact (termination_ok V gen tr calls s). Qed.
Print Assumptions C38_termination.

(** C38 for the matrices of the library: threads that decompose and compose
    get the matrices a lone thread would generate. *)
Theorem C38_matrices (T : Type) (A : Arith T) (calls : list (list request)) (s : list nat) :
  let gen p := let* padded := calc_padded (wtype p) (shape p) (steps p) in gen_matrices padded p in
  let w := run gen (map (map stranspose)) s (start calls) in
  forall th rq r, In th (threads w) -> In (rq, r) (got th) ->
  r = let* padded := calc_padded (wtype (rpar rq)) (shape (rpar rq)) (steps (rpar rq)) in
      if rtrans rq then gen_trans_matrices padded (rpar rq) else gen_matrices padded (rpar rq).
Proof. exact (concurrent_matrices calls s). Qed.
Print Assumptions C38_matrices.

(** Three threads racing for the same two keys, interleaved step by step:
    all finish, and each has its results. *)
Definition demo_calls : list (list request) :=
  [[Request true p1; Request false p2]; [Request true p1]; [Request false p1; Request true p2]].
Example C38_case :
  let w := run (fun p => Ok (steps p)) Z.opp (concat (repeat [0; 1; 2] 30)) (start demo_calls) in
  forallb (fun th => match todo th, at_pc th with [], Idle => true | _, _ => false end) (threads w) = true /\
  map (fun th => map snd (rev (got th))) (threads w) =
    [[Ok (-1); Ok 2]; [Ok (-1)]; [Ok 1; Ok (-2)]]%Z.
Proof. vm_compute. repeat split. Qed.
