(** * C119: threads that work on different channels of shared buffers *)
Require Import List Bool Arith ZArith Lia.
Require Import Verif.M_Base Verif.M_Params Verif.M_Buffer Verif.M_View.
Require Import Verif.S_Params Verif.S_Buffer Verif.P_Api2.
Require Import Verif.M_Share Verif.S_Share Verif.P_Share3 Verif.P_Share4.
Import ListNotations.
Open Scope nat_scope.

(** ** No data race *)
Theorem C119_race_free (T : Type) (A : Arith T) plans (m : mem T) sched :
  apart plans -> ~ race (run sched (start m plans)).
Proof. exact (race_free plans m sched). Qed.
Print Assumptions C119_race_free.

(** ** Whatever the schedule, the buffers and all answers are those of running
    the threads one after the other, each call in one piece *)
Theorem C119_serial (T : Type) (A : Arith T) plans (m m' : mem T) r sched :
  apart plans -> do_threads m plans = Ok (r, m') ->
  all_finished (run sched (start m plans)) ->
  wmem (run sched (start m plans)) = m' /\
  map (@answers T) (threads (run sched (start m plans))) = map (map Ok) r.
Proof. exact (serial plans m r m' sched). Qed.
Print Assumptions C119_serial.

(** ** and they finish: the number of moves is bounded, and enough rounds in
    which every thread gets a turn, in any order, finish them all *)
Theorem C119_termination (T : Type) (A : Arith T) plans (m m' : mem T) r :
  apart plans -> do_threads m plans = Ok (r, m') -> exists N,
  (forall sched, moves sched (start m plans) <= N) /\
  (forall rounds, N <= length rounds ->
     Forall (fun s => forall t, t < length plans -> In t s) rounds ->
     all_finished (run (concat rounds) (start m plans))).
Proof. exact (terminates plans m r m'). Qed.
Print Assumptions C119_termination.

(** ** The channels of one buffer shared out among threads: the buffer ends
    up as after one Decompose of all signals, and the pieces the threads
    composed, put side by side, are what one Compose gives *)
Theorem C119_workers (T : Type) (A : Arith T) p (b : buffer T) groups den sf sched :
  accepted p -> (signum p < 2 ^ 31)%Z -> reachable p b -> keeps_shape den -> (0 <= sf <= steps p)%Z ->
  Forall (fun d => d <> []) groups -> Forall (Forall (shaped p)) groups ->
  (1 <= signum p)%Z -> Z.of_nat (length (concat groups)) = signum p ->
  let w := run sched (start [b] (shares 0 den sf 0 groups)) in
  all_finished w ->
  exists b' out outs,
    decompose b (concat groups) den = Ok (true, b') /\ compose b' sf = Ok (true, out) /\
    wmem w = [b'] /\
    map (@answers T) (threads w) = map (fun o => [Ok (Did true); Ok (Composed true (Some o))]) outs /\
    concat outs = out /\ map (@length _) outs = map (@length _) groups.
Proof. exact (workers p b groups den sf sched). Qed.
Print Assumptions C119_workers.
Theorem C119_workers_free (T : Type) (A : Arith T) (b : buffer T) groups den sf sched :
  ~ race (run sched (start [b] (shares 0 den sf 0 groups))).
Proof. exact (race_free _ [b] sched (shares_apart 0 den sf 0 groups)). Qed.
Print Assumptions C119_workers_free.

(** ** Cases *)
Section Cases.
#[local] Existing Instance Z_arith.
Let p2 := Params [4]%Z 2 1 1.
Let sig (a : list Z) : mat Z := Mat 4 1 a.
Let fresh (p : params) : buffer Z := Buffer p (repeat [mempty; mempty] (Z.to_nat (signum p))).
Let dec (b : buffer Z) data := match decompose b data null_denoiser with Ok (_, b') => b' | _ => b end.

(** two threads share out buffer 0, a third copies and composes buffer 1 *)
Let plans := shares 0 null_denoiser 0 0 [[sig [1; 2; 3; 4]%Z]; [sig [5; 6; 7; 9]%Z]] ++ [[CCopy 1; CCompose 1 1%Z]].
Let mem0 := [fresh p2; dec (fresh p2) [sig [1; 1; 1; 8]%Z; sig [0; 2; 0; 2]%Z]].
Example C119_case_apart : apart plans.
Proof.
  intros t t' cs cs' N E E' c c' I I' i ch W.
  destruct t as [|[|[|t]]]; cbn in E; [| | |destruct t; discriminate]; injection E as <-;
    cbn in I; destruct I as [<-|[<-|[]]]; cbn in W; try easy;
    (destruct t' as [|[|[|t']]]; cbn in E'; [| | |destruct t'; discriminate]; injection E' as <-;
     cbn in I'; destruct I' as [<-|[<-|[]]]; cbn; try congruence; lia).
Qed.
Example C119_case : (exists r m', do_threads mem0 plans = Ok (r, m') /\ m' <> mem0) /\
  all_finished (run (concat (repeat [2; 0; 1; 1] 30)) (start mem0 plans)) /\
  ~ all_finished (run (concat (repeat [2; 0; 1; 1] 5)) (start mem0 plans)).
Proof.
  split; [|split].
  - assert (E : match do_threads mem0 plans with Ok (_, b :: _) => map (map (@rows Z)) (bdec b) | _ => [] end = [[2; 2]; [2; 2]])
      by (vm_compute; reflexivity).
    destruct (do_threads mem0 plans) as [[r m']| |]; [|discriminate|discriminate]. exists r, m'. split; [reflexivity|].
    intros ->. vm_compute in E. discriminate.
  - apply finished_all. vm_compute. reflexivity.
  - intros H. assert (E : forallb finished (threads (run (concat (repeat [2; 0; 1; 1] 5)) (start mem0 plans))) = true).
    { apply finished_all. exact H. }
    vm_compute in E. discriminate.
Qed.
Example C119_workers_case :
  accepted p2 /\ reachable p2 (fresh p2) /\ keeps_shape (@null_denoiser Z) /\
  Forall (Forall (shaped p2)) [[sig [1; 2; 3; 4]%Z]; [sig [5; 6; 7; 9]%Z]] /\
  all_finished (run (concat (repeat [0; 1] 30)) (start [fresh p2] (shares 0 null_denoiser 0 0 [[sig [1; 2; 3; 4]%Z]; [sig [5; 6; 7; 9]%Z]]))).
Proof.
  split; [|split; [|split; [|split]]].
  - unfold accepted, params_rep, legal, u64, i32, p2; cbn [shape signum steps wtype length]; repeat split; auto; repeat constructor; lia.
  - apply reach_new. vm_compute. reflexivity.
  - split; [reflexivity|]. intros m s W. repeat split; auto.
  - repeat constructor.
  - apply finished_all. vm_compute. reflexivity.
Qed.

(** ** Threads that are not apart: one decomposes a channel another composes.
    There is a race, and the composed signal can be neither the old nor the
    new one. *)
Let p1 := Params [4]%Z 1 1 1.
Let old := dec (fresh p1) [sig [1; 2; 3; 4]%Z].
(** the samples composed by the threads *)
Let samples (l : list (list (res (answer Z)))) : list (list (list Z)) :=
  map (fun rs => concat (map (fun r => match r with Ok (Composed _ (Some o)) => map (@elts Z) o | _ => [] end) rs)) l.
Theorem C119_shared_channel_refuted : exists (m : mem Z) (a c : call Z),
  let plans := [[a]; [c]] in
  (exists sched, race (run sched (start m plans))) /\
  exists sched r1 m1 r2 m2,
    all_finished (run sched (start m plans)) /\
    do_threads m [[a]; [c]] = Ok (r1, m1) /\ do_threads m [[c]; [a]] = Ok (r2, m2) /\
    map (@answers Z) (threads (run sched (start m plans))) <> map (map Ok) r1 /\
    map (@answers Z) (threads (run sched (start m plans))) <> map (map Ok) (rev r2).
Proof.
  exists [old], (CDecompose 0 [sig [10; 0; 30; 7]%Z] null_denoiser), (CCompose 0 0%Z). cbv zeta. split.
  - exists (repeat 0 3 ++ repeat 1 4).
    set (w := run _ _). pose (th i := nth i (threads w) (Thread None [] [])).
    exists 0, 1, (th 0), (th 1), (Loc 0 0 1), false. split; [discriminate|].
    split; [|split; [|split]].
    + apply nth_error_nth'. vm_compute. lia.
    + apply nth_error_nth'. vm_compute. lia.
    + vm_compute. reflexivity.
    + vm_compute. reflexivity.
  - exists (repeat 0 3 ++ repeat 1 40 ++ repeat 0 20).
    set (w := run _ _). set (ac := do_threads [old] [[_]; [_]]). set (ca := do_threads [old] [[CCompose 0 0%Z]; _]).
    pose (got (r : res (list (list (answer Z)) * mem Z)) := match r with Ok (x, _) => samples (map (map Ok) x) | _ => [] end : list (list (list Z))).
    assert (N1 : samples (map (@answers Z) (threads w)) <> got ac) by (vm_compute; discriminate).
    assert (N2 : samples (map (@answers Z) (threads w)) <> rev (got ca)) by (vm_compute; discriminate).
    assert (O1 : match ac with Ok _ => true | _ => false end = true) by (vm_compute; reflexivity).
    assert (O2 : match ca with Ok _ => true | _ => false end = true) by (vm_compute; reflexivity).
    assert (F : forallb finished (threads w) = true) by (vm_compute; reflexivity).
    clearbody w ac ca. destruct ac as [[r1 m1]| |]; [|discriminate|discriminate]. destruct ca as [[r2 m2]| |]; [|discriminate|discriminate].
    exists r1, m1, r2, m2. split; [|split; [|split; [|split]]]; auto.
    + apply finished_all. exact F.
    + intros E. apply N1. unfold got. now rewrite E.
    + intros E. apply N2. unfold got, samples. rewrite E. now rewrite !map_rev.
Qed.
Print Assumptions C119_shared_channel_refuted.
End Cases.
