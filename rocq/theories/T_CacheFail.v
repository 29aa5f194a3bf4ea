(** * T_CacheFail: property C37 when memory runs out *)
Require Import List Bool Arith ZArith.
Require Import Verif.M_Base Verif.M_Params Verif.M_Buffer Verif.M_View Verif.M_Cache Verif.S_Cache Verif.M_CacheFail Verif.S_CacheFail.
Require Import Verif.P_Cache Verif.P_CacheFail Verif.P_Base Verif.P_Api2.
Require Import Verif.T_Cache.
Import ListNotations.
Open Scope nat_scope.

(** C37: calls that run out of memory, anywhere in them, do not spoil the
    matrices: all other calls of the program get the answers of a library
    without a cache. *)
Theorem C37_out_of_memory (T : Type) (A : Arith T) (calls : list (call_or_failure T)) :
  history_m empty_cache calls = history_fresh_m calls.
Proof. exact (history_m_ok calls empty_cache good_empty). Qed.
Print Assumptions C37_out_of_memory.
(** with enough memory in the cache, its functions are those of M_Cache *)
Theorem C37_memory_agrees (T : Type) (A : Arith T) (c : cache T) padded p :
  generate_matrices_m true c padded p = generate_matrices c padded p /\
  generate_trans_matrices_m true true c padded p = generate_trans_matrices c padded p.
Proof. split; [exact (generate_true c padded p)|exact (generate_trans_true c padded p)]. Qed.
Print Assumptions C37_memory_agrees.

(** The program of C37_case with failures between its calls: a Decompose before
    and a Compose between the changes of the two maps *)
Definition prog_m : list (call_or_failure Z) :=
  RunsOut false false true p1 :: RunsOut true true false p1 :: RunsOut true false true p2 :: map Completes prog.
Local Existing Instance Z_arith.
Example C37_memory_case : length (history_m empty_cache prog_m) = 9 /\
  plain (cache_left true true false empty_cache p1) = Node Leaf p1 0 Leaf /\
  transposed (cache_left true true false empty_cache p1) = Leaf /\
  cache_left false false true empty_cache p1 = empty_cache.
Proof. vm_compute. repeat split. Qed.
