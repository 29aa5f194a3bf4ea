(** * S_Cache: histories of calls and schedules *)
Require Import List Bool Arith ZArith.
Require Import Verif.M_Base Verif.M_Params Verif.M_Buffer Verif.M_View Verif.M_Cache.
Import ListNotations.

(** The API calls of a program, whatever buffers they are made on. *)
Inductive api_call (T : Type) :=
| CDecompose (b : buffer T) (data : list (mat T)) (den : denoiser T)
| CDecompose1 (b : buffer T) (data : list T) (den : denoiser T)
| CCompose (b : buffer T) (sf : Z)
| CCompose1 (b : buffer T) (sf : Z)
| CViewDecompose (v : view) (b : buffer T) (data : list (mat T)) (den : denoiser T)
| CViewCompose (v : view) (b : buffer T) (sf : Z)
| CDecomposeMore (p : params) (dec : ndecomposition T) (more : nat) (den : denoiser T).
Arguments CDecompose {T}.
Arguments CDecompose1 {T}.
Arguments CCompose {T}.
Arguments CCompose1 {T}.
Arguments CViewDecompose {T}.
Arguments CViewCompose {T}.
Arguments CDecomposeMore {T}.

(** What a call gives back *)
Inductive answer (T : Type) :=
| ABuffer (r : bool) (b : buffer T)
| ASignals (r : bool) (l : list (mat T))
| ASignal (r : bool) (l : list T)
| AOptSignals (r : bool) (l : option (list (mat T)))
| ADec (d : ndecomposition T).
Arguments ABuffer {T}.
Arguments ASignals {T}.
Arguments ASignal {T}.
Arguments AOptSignals {T}.
Arguments ADec {T}.

Section S.
Context {T : Type} {A : Arith T}.

(** The answer of a library without any cache *)
Definition fresh (c : api_call T) : res (answer T) :=
  match c with
  | CDecompose b data den => let* r := decompose b data den in Ok (ABuffer (fst r) (snd r))
  | CDecompose1 b data den => let* r := decompose1 b data den in Ok (ABuffer (fst r) (snd r))
  | CCompose b sf => let* r := compose b sf in Ok (ASignals (fst r) (snd r))
  | CCompose1 b sf => let* r := compose1 b sf in Ok (ASignal (fst r) (snd r))
  | CViewDecompose v b data den => let* r := view_decompose v b data den in Ok (ABuffer (fst r) (snd r))
  | CViewCompose v b sf => let* r := view_compose v b sf in Ok (AOptSignals (fst r) (snd r))
  | CDecomposeMore p dec more den => let* r := decompose_more p dec more den in Ok (ADec r)
  end.

(** The answer with the cache, and the cache afterwards *)
Definition cached (h : cache T) (c : api_call T) : cache T * res (answer T) :=
  match c with
  | CDecompose b data den => cbind (decompose_c h b data den) (fun h r => (h, Ok (ABuffer (fst r) (snd r))))
  | CDecompose1 b data den => cbind (decompose1_c h b data den) (fun h r => (h, Ok (ABuffer (fst r) (snd r))))
  | CCompose b sf => cbind (compose_c h b sf) (fun h r => (h, Ok (ASignals (fst r) (snd r))))
  | CCompose1 b sf => cbind (compose1_c h b sf) (fun h r => (h, Ok (ASignal (fst r) (snd r))))
  | CViewDecompose v b data den => cbind (view_decompose_c h v b data den) (fun h r => (h, Ok (ABuffer (fst r) (snd r))))
  | CViewCompose v b sf => cbind (view_compose_c h v b sf) (fun h r => (h, Ok (AOptSignals (fst r) (snd r))))
  | CDecomposeMore p dec more den => cbind (decompose_more_c h p dec more den) (fun h r => (h, Ok (ADec r)))
  end.

(** A program: its calls one after the other, on the cache the previous ones
    left; an exception is caught and the program goes on; undefined behaviour
    ends it. *)
Fixpoint history (h : cache T) (cs : list (api_call T)) : list (res (answer T)) :=
  match cs with
  | [] => []
  | c :: cs' =>
      match cached h c with
      | (_, UB) => [UB]
      | (h', a) => a :: history h' cs'
      end
  end.

(** The same program without any cache *)
Fixpoint history_fresh (cs : list (api_call T)) : list (res (answer T)) :=
  match cs with
  | [] => []
  | c :: cs' =>
      match fresh c with
      | UB => [UB]
      | a => a :: history_fresh cs'
      end
  end.
End S.

(** Threads: a thread has finished, the whole program has finished. *)
Definition finished {V} (th : @thread V) : Prop := todo th = [] /\ at_pc th = Idle.

(** The value a call must give: the matrices of its parameters, transposed or
    not. *)
Definition expected {V} (gen : params -> res V) (tr : V -> V) (rq : request) : res V :=
  if rtrans rq then let* v := gen (rpar rq) in Ok (tr v) else gen (rpar rq).

(** Two threads are about to access the same memory, at least one writing. *)
Definition race {V} (w : @world V) : Prop :=
  exists t1 t2 x b1 b2, t1 <> t2 /\ In (x, b1) (touches w t1) /\ In (x, b2) (touches w t2) /\
    b1 || b2 = true.

(** The number of steps really made by a schedule *)
Fixpoint moves {V} (gen : params -> res V) (tr : V -> V) (s : list nat) (w : @world V) : nat :=
  match s with
  | [] => 0
  | t :: s' => match step gen tr w t with
               | Some w' => S (moves gen tr s' w')
               | None => moves gen tr s' w
               end
  end.
