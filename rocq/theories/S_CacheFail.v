(** * S_CacheFail: programs some of whose calls run out of memory *)
Require Import List Bool Arith ZArith.
Require Import Verif.M_Base Verif.M_Params Verif.M_Buffer Verif.M_View Verif.M_Cache Verif.S_Cache Verif.M_CacheFail.
Import ListNotations.

(** A call that is completed, or one on a buffer with parameters p that memory
    ended before the cache was changed, between its two changes, or after. *)
Inductive call_or_failure (T : Type) :=
| Completes (c : api_call T)
| RunsOut (back mem mem2 : bool) (p : params).
Arguments Completes {T}.
Arguments RunsOut {T}.

Section S.
Context {T : Type} {A : Arith T}.

(** The program on the cache; it catches every exception and goes on *)
Fixpoint history_m (h : cache T) (cs : list (call_or_failure T)) : list (res (answer T)) :=
  match cs with
  | [] => []
  | Completes c :: cs' =>
      match cached h c with
      | (_, UB) => [UB]
      | (h', a) => a :: history_m h' cs'
      end
  | RunsOut back mem mem2 p :: cs' => Throw :: history_m (cache_left back mem mem2 h p) cs'
  end.

(** The same without any cache *)
Fixpoint history_fresh_m (cs : list (call_or_failure T)) : list (res (answer T)) :=
  match cs with
  | [] => []
  | Completes c :: cs' =>
      match fresh c with
      | UB => [UB]
      | a => a :: history_fresh_m cs'
      end
  | RunsOut _ _ _ _ :: cs' => Throw :: history_fresh_m cs'
  end.
End S.
