(** * P_Share3: every schedule of threads that are apart *)
Require Import List Bool Arith ZArith Lia.
Require Import Verif.M_Base Verif.M_Params Verif.M_Buffer Verif.M_View.
Require Import Verif.P_Base Verif.P_Object.
Require Import Verif.M_Share Verif.S_Share Verif.P_Share Verif.P_Share2.
Import ListNotations.
Open Scope nat_scope.

Section Schedules.
Context {T : Type} {A : Arith T}.
Implicit Types m : mem T.

(** ** What is left of a thread, as one program *)
Definition cur (o : option (prog T (answer T))) : prog T (list (answer T)) :=
  match o with None => ret [] | Some a => then_ a (fun x => ret [x]) end.
Definition rest_of (th : thread T) : prog T (list (answer T)) :=
  then_ (Stop (mapM (fun r => r) (answers th))) (fun done =>
  then_ (cur (now th)) (fun x =>
  then_ (pmap prog_of (todo th)) (fun r => ret (done ++ x ++ r)))).
Definition overhead (th : thread T) : nat := 2 * length (todo th) + match now th with None => 0 | Some _ => 1 end.

Lemma then_ok {X Y} (a : prog T X) (f : X -> prog T Y) m y m' n :
  exec (then_ a f) m = Ok (y, m', n) <->
  exists x m1 n1 n2, exec a m = Ok (x, m1, n1) /\ exec (f x) m1 = Ok (y, m', n2) /\ n = n1 + n2.
Proof.
  rewrite exec_then. split.
  - intros E. apply bind_ok in E as ([[x m1] n1] & E1 & E). apply bind_ok in E as ([[y2 m2] n2] & E2 & E).
    cbn in *. injection E as -> -> <-. exists x, m1, n1, n2. auto.
  - intros (x & m1 & n1 & n2 & E1 & E2 & ->). rewrite E1. cbn. now rewrite E2.
Qed.
Lemma stop_ok {X} (r : res X) m x m' n : exec (Stop r) m = Ok (x, m', n) <-> r = Ok x /\ m' = m /\ n = 0.
Proof.
  cbn. split.
  - intros E. apply bind_ok in E as (y & -> & E). injection E as -> -> <-. auto.
  - intros (-> & -> & ->). reflexivity.
Qed.
Lemma pmap_app {X Y} (f : X -> prog T Y) l1 a l2 m r m' n :
  exec (pmap f (l1 ++ a :: l2)) m = Ok (r, m', n) <->
  exists r1 m1 n1 x m2 n2 r2 n3,
    exec (pmap f l1) m = Ok (r1, m1, n1) /\ exec (f a) m1 = Ok (x, m2, n2) /\
    exec (pmap f l2) m2 = Ok (r2, m', n3) /\ r = r1 ++ x :: r2 /\ n = n1 + n2 + n3.
Proof.
  revert m r n. induction l1 as [|b l1 IH]; intros m r n; cbn [app pmap].
  - rewrite then_ok. split.
    + intros (x & m2 & n2 & n3 & E1 & E & ->). apply then_ok in E as (r2 & m3 & n4 & n5 & E2 & E & ->).
      apply stop_ok in E as (E & -> & ->). injection E as <-.
      exists [], m, 0, x, m2, n2, r2, n4. repeat split; auto; lia.
    + intros (r1 & m1 & n1 & x & m2 & n2 & r2 & n3 & E1 & E2 & E3 & -> & ->).
      apply stop_ok in E1 as (E1 & -> & ->). injection E1 as <-.
      exists x, m2, n2, n3. split; [auto|]. split; [|lia]. apply then_ok. exists r2, m', n3, 0. split; [solve [auto]|].
      split; [now apply stop_ok|lia].
  - rewrite then_ok. split.
    + intros (x & m2 & n2 & n3 & E1 & E & ->). apply then_ok in E as (r2 & m3 & n4 & n5 & E2 & E & ->).
      apply stop_ok in E as (E & -> & ->). injection E as <-.
      apply IH in E2 as (r1 & m4 & n6 & y & m5 & n7 & r3 & n8 & E3 & E4 & E5 & -> & ->).
      exists (x :: r1), m4, (n2 + n6), y, m5, n7, r3, n8. split; [|repeat split; auto; lia].
      apply then_ok. exists x, m2, n2, n6. split; [solve [auto]|]. split; [|lia]. apply then_ok.
      exists r1, m4, n6, 0. split; [solve [auto]|]. split; [now apply stop_ok|lia].
    + intros (r1 & m1 & n1 & x & m2 & n2 & r2 & n3 & E1 & E2 & E3 & -> & ->).
      apply then_ok in E1 as (y & m4 & n4 & n5 & E4 & E & ->). apply then_ok in E as (r4 & m5 & n6 & n7 & E5 & E & ->).
      apply stop_ok in E as (E & -> & ->). injection E as <-.
      exists y, m4, n4, (n6 + n2 + n3). split; [solve [auto]|]. split; [|lia]. apply then_ok.
      exists (r4 ++ x :: r2), m', (n6 + n2 + n3), 0. split; [|split; [now apply stop_ok|lia]].
      apply IH. exists r4, m5, n6, x, m2, n2, r2, n3. repeat split; auto.
Qed.
Lemma rest_ok th m r m' n : exec (rest_of th) m = Ok (r, m', n) <->
  exists done x m1 n1 rs n2,
    mapM (fun r => r) (answers th) = Ok done /\ exec (cur (now th)) m = Ok (x, m1, n1) /\
    exec (pmap prog_of (todo th)) m1 = Ok (rs, m', n2) /\ r = done ++ x ++ rs /\ n = n1 + n2.
Proof.
  unfold rest_of. rewrite then_ok. split.
  - intros (done & m0 & n0 & n3 & E0 & E & ->). apply stop_ok in E0 as (E0 & -> & ->).
    apply then_ok in E as (x & m1 & n1 & n2 & E1 & E & ->). apply then_ok in E as (rs & m2 & n4 & n5 & E2 & E & ->).
    apply stop_ok in E as (E & -> & ->). injection E as <-. exists done, x, m1, n1, rs, n4. repeat split; auto; lia.
  - intros (done & x & m1 & n1 & rs & n2 & E0 & E1 & E2 & -> & ->). exists done, m, 0, (n1 + n2).
    split; [now apply stop_ok|]. split; [|lia]. apply then_ok. exists x, m1, n1, n2. split; [solve [auto]|]. split; [|lia].
    apply then_ok. exists rs, m', n2, 0. split; [solve [auto]|]. split; [now apply stop_ok|lia].
Qed.

(** ** One step of a thread, against the rest of its run from a memory M that
    looks the same to it *)
Lemma mapM_snoc {X} (l : list (res X)) a done : mapM (fun r => r) l = Ok done ->
  mapM (fun r => r) (l ++ [Ok a]) = Ok (done ++ [a]).
Proof.
  revert done. induction l as [|x l IH]; intros done E; cbn in *.
  - now injection E as <-.
  - apply bind_ok in E as (y & -> & E). apply bind_ok in E as (t & E & E'). injection E' as <-. cbn.
    now rewrite (IH _ E).
Qed.

Inductive sees m M : prog T (answer T) -> Prop :=
| sees_stop r : sees m M (Stop r)
| sees_head i k : head M i = head m i -> sees m M (Head i k)
| sees_size i c k : size M i c = size m i c -> sees m M (Size i c k)
| sees_get l k : get M l = get m l -> sees m M (Get l k).

(** all steps but writes *)
Lemma step_read m m1 th th' M r M' n : tstep m th = Some (m1, th') ->
  match now th with None => True | Some a => sees m M a end ->
  exec (rest_of th) M = Ok (r, M', n) ->
  m1 = m /\ exists n', exec (rest_of th') M = Ok (r, M', n') /\ n + overhead th = S (n' + overhead th').
Proof.
  intros E V F. destruct th as [nw td an]. cbn [now] in V. apply rest_ok in F as (done & x & M1 & n1 & rs & n2 & F0 & F1 & F2 & -> & ->).
  cbn [now todo answers] in *. unfold tstep in E. cbn [now todo answers] in E.
  destruct nw as [a|].
  2: { destruct td as [|c cs]; [discriminate|]. injection E as <- <-. split; [reflexivity|].
       apply stop_ok in F1 as (F1 & -> & ->). injection F1 as <-.
       cbn [pmap] in F2. apply then_ok in F2 as (y & M2 & n3 & n4 & F3 & F & ->).
       apply then_ok in F as (ys & M3 & n5 & n6 & F4 & F & ->). apply stop_ok in F as (F & -> & ->). injection F as <-.
       exists (n3 + n5). split.
       - apply rest_ok. cbn [now todo answers]. exists done, [y], M2, n3, ys, n5. repeat split; auto.
         cbn [cur]. apply then_ok. exists y, M2, n3, 0. split; [solve [auto]|]. split; [now apply stop_ok|lia].
       - unfold overhead. cbn [now todo length]. lia. }
  cbn [cur] in F1. apply then_ok in F1 as (y & M2 & n3 & n4 & F3 & F & ->). apply stop_ok in F as (F & -> & ->). injection F as <-.
  assert (Go : forall a' n3', exec a' M = Ok (y, M2, n3') -> n3 = S n3' ->
     exists n', exec (rest_of (Thread (Some a') td an)) M = Ok (done ++ [y] ++ rs, M', n') /\
       n3 + 0 + n2 + overhead (Thread (Some a) td an) = S (n' + overhead (Thread (Some a') td an))).
  { intros a' n3' Fa ->. exists (n3' + n2). split.
    - apply rest_ok. cbn [now todo answers]. exists done, [y], M2, n3', rs, n2. repeat split; auto.
      cbn [cur]. apply then_ok. exists y, M2, n3', 0. split; [solve [auto]|]. split; [now apply stop_ok|lia].
    - unfold overhead. cbn [now todo]. lia. }
  inversion V as [q Hq|i k Hh Hq|i c k Hh Hq|l k Hh Hq]; subst a; injection E as <- <-; (split; [reflexivity|]).
  - apply stop_ok in F3 as (-> & -> & ->). exists n2. split.
    + apply rest_ok. cbn [now todo answers]. exists (done ++ [y]), [], M, 0, rs, n2.
      split; [now apply mapM_snoc|]. split; [now apply stop_ok|]. split; [auto|]. split; [now rewrite <- app_assoc|lia].
    + unfold overhead. cbn [now todo]. lia.
  - cbn [exec] in F3. apply bind_ok in F3 as ([p nn] & Eh & F3). apply bind_ok in F3 as ([[y' m2] n5] & F4 & F3).
    injection F3 as -> -> <-. cbn [fst snd] in F4. rewrite Hh in Eh. unfold head in Eh.
    destruct (rd m i) as [b| |]; [|discriminate|discriminate]. cbn in Eh. injection Eh as <- <-. cbn [access].
    apply (Go _ _ F4). reflexivity.
  - cbn [exec] in F3. apply bind_ok in F3 as (nn & Eh & F3). apply bind_ok in F3 as ([[y' m2] n5] & F4 & F3).
    injection F3 as -> -> <-. rewrite Hh in Eh. rewrite Eh. cbn [access]. apply (Go _ _ F4). reflexivity.
  - cbn [exec] in F3. apply bind_ok in F3 as (nn & Eh & F3). apply bind_ok in F3 as ([[y' m2] n5] & F4 & F3).
    injection F3 as -> -> <-. rewrite Hh in Eh. rewrite Eh. cbn [access]. apply (Go _ _ F4). reflexivity.
Qed.
Lemma step_write l z k td an M r M' n : exec (rest_of (Thread (Some (Put l z k)) td an)) M = Ok (r, M', n) ->
  exists M1 n', put M l z = Ok M1 /\ exec (rest_of (Thread (Some k) td an)) M1 = Ok (r, M', n') /\ n = S n'.
Proof.
  intros F. apply rest_ok in F as (done & x & M1 & n1 & rs & n2 & F0 & F1 & F2 & -> & ->). cbn [now todo answers cur] in *.
  apply then_ok in F1 as (y & M2 & n3 & n4 & F3 & F & ->). apply stop_ok in F as (F & -> & ->). injection F as <-.
  cbn [exec] in F3. apply bind_ok in F3 as (M3 & P & F3). apply bind_ok in F3 as ([[y' m2] n5] & F4 & F3).
  injection F3 as -> -> <-. exists M3, (n5 + n2). split; [solve [auto]|]. split; [|lia].
  apply rest_ok. cbn [now todo answers cur]. exists done, [y], M2, n5, rs, n2. repeat split; auto.
  apply then_ok. exists y, M2, n5, 0. split; [solve [auto]|]. split; [now apply stop_ok|lia].
Qed.

(** ** Footprints of threads *)
Definition Rs (cs : list (call T)) (i ch : nat) := exists c, In c cs /\ reads c i ch.
Definition Ws (cs : list (call T)) (i ch : nat) := exists c, In c cs /\ writes c i ch.
Definition fits (cs : list (call T)) (th : thread T) : Prop :=
  incl (todo th) cs /\ match now th with None => True | Some a => within (Rs cs) (Ws cs) a end.
Lemma within_rest cs th : fits cs th -> within (Rs cs) (Ws cs) (rest_of th).
Proof.
  intros (Hi & Hn). unfold rest_of. apply within_then; [exact I|]. intros done. apply within_then.
  - unfold cur. destruct (now th); [|exact I]. apply within_then; [auto|]. intros; exact I.
  - intros x. apply within_then; [|intros; exact I]. apply within_map. intros c Hc.
    apply within_mono with (R := reads c) (W := writes c); [| |apply within_call].
    + intros i ch H. exists c. split; auto.
    + intros i ch H. exists c. split; auto.
Qed.
Lemma within_access (R W : nat -> nat -> Prop) {X} (r : res X) k : (forall x, within R W (k x)) -> within R W (access (T := T) r k).
Proof. intros H. destruct r; cbn; auto. Qed.
Lemma step_fits cs m th m' th' : tstep m th = Some (m', th') -> fits cs th -> fits cs th'.
Proof.
  destruct th as [nw td an]. intros E (Hi & Hn). unfold tstep in E. cbn [now todo answers] in *. unfold fits.
  destruct nw as [a|].
  2: { destruct td as [|c cs']; [discriminate|]. injection E as <- <-. cbn [now todo]. split.
       - intros x I. apply Hi. now right.
       - apply within_mono with (R := reads c) (W := writes c); [| |apply within_call];
           intros i ch H; exists c; (split; [apply Hi; now left|auto]). }
  destruct a as [r|i k|i c k|l k|l z k]; cbn [within] in Hn.
  - injection E as <- <-. cbn. auto.
  - injection E as <- <-. split; [auto|]. cbn [now]. apply within_access. auto.
  - injection E as <- <-. split; [auto|]. cbn [now]. apply within_access. auto.
  - injection E as <- <-. split; [auto|]. cbn [now]. apply within_access. apply Hn.
  - destruct (put m l z); injection E as <- <-; (split; [auto|]); cbn [now]; [apply Hn|exact I|exact I].
Qed.

(** ** Worlds *)
Definition fitting (plans : list (list (call T))) (w : world T) : Prop := Forall2 fits plans (threads w).
Lemma F2_upd {X Y} (R : X -> Y -> Prop) l l' t x y : Forall2 R l l' -> nth_error l t = Some x -> R x y -> Forall2 R l (upd l' t y).
Proof.
  intros H. revert t. induction H as [|a b l l' Hab H IH]; intros [|t] E Hy; cbn in *; try discriminate; constructor; auto.
  injection E as ->. auto.
Qed.
Lemma F2_nth {X Y} (R : X -> Y -> Prop) l l' t y : Forall2 R l l' -> nth_error l' t = Some y -> exists x, nth_error l t = Some x /\ R x y.
Proof.
  intros H. revert t. induction H as [|a b l l' Hab H IH]; intros [|t] E; cbn in *; try discriminate; eauto.
  injection E as <-. eauto.
Qed.
Lemma step_fitting plans w t w' : step w t = Some w' -> fitting plans w -> fitting plans w'.
Proof.
  unfold step. intros E H. destruct (nth_error (threads w) t) as [th|] eqn:Et; [|discriminate].
  destruct (tstep (wmem w) th) as [[m' th']|] eqn:Es; [|discriminate]. injection E as <-. unfold fitting. cbn [threads].
  destruct (F2_nth _ _ _ _ _ H Et) as (cs & Ec & Hf). eapply F2_upd; eauto. eapply step_fits; eauto.
Qed.
Lemma run_fitting plans sched w : fitting plans w -> fitting plans (run sched w).
Proof.
  revert w. induction sched as [|t s IH]; intros w H; cbn; [exact H|]. apply IH.
  destruct (step w t) eqn:E; auto. eapply step_fitting; eauto.
Qed.
Lemma start_fitting plans m : fitting plans (start m plans).
Proof.
  unfold fitting, start. cbn [threads]. induction plans as [|cs plans IH]; cbn; constructor; auto.
  split; cbn; [intros x I; exact I|exact I].
Qed.

Lemma apart_sets plans t t' cs cs' i ch : apart plans -> t <> t' ->
  nth_error plans t = Some cs -> nth_error plans t' = Some cs' -> Ws cs i ch -> ~ Ws cs' i ch /\ ~ Rs cs' i ch.
Proof.
  intros H N E E' (c & I & W). split; intros (c' & I' & X); destruct (H t t' cs cs' N E E' c c' I I' i ch W); auto.
Qed.

Theorem race_free plans m sched : apart plans -> ~ race (run sched (start m plans)).
Proof.
  intros H (t & t' & th & th' & l & b & N & E & E' & Ha & Ha').
  pose proof (run_fitting plans sched _ (start_fitting plans m)) as F.
  destruct (F2_nth _ _ _ _ _ F E) as (cs & Ec & _ & Hn). destruct (F2_nth _ _ _ _ _ F E') as (cs' & Ec' & _ & Hn').
  unfold next_access in Ha, Ha'. destruct (now th) as [[| | | |]|]; try discriminate. injection Ha as ->.
  cbn in Hn. destruct (apart_sets plans t t' cs cs' _ _ H N Ec Ec' (proj1 Hn)) as (N1 & N2).
  destruct (now th') as [[| | | |]|]; try discriminate; injection Ha' as -> _; cbn in Hn'; destruct Hn'; auto.
Qed.

(** ** The invariant: finishing the threads one after the other *)
Definition total (w : world T) (r : list (list (answer T))) (m : mem T) (n : nat) : Prop :=
  exec (pmap rest_of (threads w)) (wmem w) = Ok (r, m, n).
Definition overheads (ths : list (thread T)) : nat := list_sum (map overhead ths).

Lemma split_nth {X} (l : list X) t x : nth_error l t = Some x -> exists l1 l2, l = l1 ++ x :: l2 /\ length l1 = t.
Proof. apply nth_error_split. Qed.
Lemma upd_split {X} (l1 : list X) x l2 y : upd (l1 ++ x :: l2) (length l1) y = l1 ++ y :: l2.
Proof. induction l1; cbn; congruence. Qed.

Lemma total_step plans w t w' r mf n : apart plans -> fitting plans w -> step w t = Some w' -> total w r mf n ->
  exists n', total w' r mf n' /\ n + overheads (threads w) = S (n' + overheads (threads w')).
Proof.
  intros Hap F E Ht. unfold step in E. destruct (nth_error (threads w) t) as [th|] eqn:Et; [|discriminate].
  destruct (tstep (wmem w) th) as [[m' th']|] eqn:Es; [|discriminate]. injection E as <-.
  destruct w as [m ths]. unfold total in *. cbn [threads wmem] in *.
  destruct (split_nth _ _ _ Et) as (l1 & l2 & -> & L). subst t. rewrite upd_split.
  apply pmap_app in Ht as (r1 & m1 & n1 & x & m2 & n2 & r2 & n3 & E1 & E2 & E3 & -> & ->).
  destruct (F2_nth _ _ _ _ _ F Et) as (cs & Ec & Hf).
  (* the threads before this one do not touch what it touches *)
  assert (Others : forall th0, In th0 l1 -> exists t0 cs0, t0 <> length l1 /\ nth_error plans t0 = Some cs0 /\ fits cs0 th0).
  { intros th0 I0. destruct (In_nth_error _ _ I0) as (t0 & E0). pose proof (nth_some_lt _ _ _ E0).
    assert (E0' : nth_error (l1 ++ th :: l2) t0 = Some th0) by (rewrite nth_error_app1; auto).
    destruct (F2_nth _ _ _ _ _ F E0') as (cs0 & Ec0 & Hf0). exists t0, cs0. split; [lia|auto]. }
  assert (Sum : forall a b, overheads (l1 ++ a :: l2) = overheads l1 + overhead a + overheads l2 /\ overheads (l1 ++ b :: l2) = overheads l1 + overhead b + overheads l2).
  { intros a b. unfold overheads. rewrite !map_app, !list_sum_app. cbn [map list_sum fold_right]. change (fold_right Nat.add 0 (map overhead l2)) with (list_sum (map overhead l2)). lia. }
  destruct (Sum th th') as (-> & ->). clear Sum.
  assert (Read : forall sth, match now th with None => True | Some a => sees m m1 a end -> sth = th' ->
     exists n', exec (pmap rest_of (l1 ++ sth :: l2)) m' = Ok (r1 ++ x :: r2, mf, n') /\
       n1 + n2 + n3 + (overheads l1 + overhead th + overheads l2) = S (n' + (overheads l1 + overhead sth + overheads l2))).
  { intros sth V ->. destruct (step_read _ _ _ _ _ _ _ _ Es V E2) as (-> & n2' & E2' & En).
    exists (n1 + n2' + n3). split; [|lia]. apply pmap_app. exists r1, m1, n1, x, m2, n2', r2, n3. repeat split; auto. }
  destruct th as [nw td an]. cbn [now] in *.
  destruct nw as [[q|i k|i c k|l k|l z k]|].
  - apply Read; auto. constructor.
  - apply Read; auto. constructor. eapply exec_head; eauto.
  - apply Read; auto. constructor. eapply exec_size; eauto.
  - apply Read; auto. constructor.
    eapply exec_get with (R := fun _ _ => True) (W := fun i c => ~ (i = lbuf l /\ c = lch l)); [|intros N; apply N; auto|exact E1].
    apply within_map. intros th0 I0. destruct (Others th0 I0) as (t0 & cs0 & N0 & Ec0 & Hf0).
    apply within_mono with (R := Rs cs0) (W := Ws cs0); [auto| |now apply within_rest].
    intros i ch HW (-> & ->). destruct Hf as (_ & Hn). cbn in Hn.
    destruct (apart_sets plans t0 (length l1) cs0 cs _ _ Hap N0 Ec0 Ec HW) as (_ & N). apply N, Hn.
  - destruct Hf as (_ & Hn). cbn in Hn. destruct Hn as (HW & Hk).
    destruct (step_write _ _ _ _ _ _ _ _ _ E2) as (m1' & n2' & P & E2' & ->).
    assert (Hw : within (fun i c => ~ (i = lbuf l /\ c = lch l)) (fun i c => ~ (i = lbuf l /\ c = lch l)) (pmap rest_of l1)).
    { apply within_map. intros th0 I0. destruct (Others th0 I0) as (t0 & cs0 & N0 & Ec0 & Hf0).
      apply within_mono with (R := Rs cs0) (W := Ws cs0); [| |now apply within_rest];
        intros i ch HX (-> & ->); destruct (apart_sets plans (length l1) t0 cs cs0 _ _ Hap (not_eq_sym N0) Ec Ec0 HW) as (N1 & N2); auto. }
    destruct (put_get _ _ _ _ P) as (old & G).
    rewrite (exec_get _ _ _ _ _ _ _ l Hw (fun N => N (conj eq_refl eq_refl)) E1) in G.
    destruct (get_put m l z old G) as (mp & Pm).
    destruct (exec_put _ _ _ _ _ _ _ _ _ _ Hw (fun N => N (conj eq_refl eq_refl)) (fun N => N (conj eq_refl eq_refl)) Pm E1)
      as (m1'' & P'' & E1').
    rewrite P in P''. injection P'' as <-.
    cbn [tstep now todo answers] in Es. unfold tstep in Es. cbn [now todo answers] in Es. rewrite Pm in Es. injection Es as <- <-.
    exists (n1 + n2' + n3). split.
    + apply pmap_app. exists r1, m1', n1, x, m2, n2', r2, n3. repeat split; auto.
    + unfold overhead. cbn [now todo]. lia.
  - apply Read; auto.
Qed.

Lemma total_run plans sched w r mf n : apart plans -> fitting plans w -> total w r mf n ->
  exists n', total (run sched w) r mf n' /\
    n + overheads (threads w) = moves sched w + (n' + overheads (threads (run sched w))).
Proof.
  intros Hap. revert w n. induction sched as [|t s IH]; intros w n F Ht; cbn [run moves].
  - exists n. auto.
  - destruct (step w t) as [w'|] eqn:E; [|apply IH; auto].
    destruct (total_step plans w t w' r mf n Hap F E Ht) as (n1 & Ht1 & En).
    destruct (IH w' n1 (step_fitting _ _ _ _ E F) Ht1) as (n2 & Ht2 & En2). exists n2. split; auto. lia.
Qed.

(** ** The start and the end *)
Lemma runs_calls m cs r m' : do_calls m cs = Ok (r, m') -> runs (pmap prog_of cs) m r m'.
Proof.
  revert m r. induction cs as [|c cs IH]; intros m r E; cbn in *.
  - injection E as <- <-. apply runs_ret.
  - apply bind_ok in E as ([x m1] & E1 & E). apply bind_ok in E as ([xs m2] & E2 & E). cbn in *. injection E as <- <-.
    eapply runs_then; [apply runs_call; eauto|]. eapply runs_then; [apply IH; eauto|]. apply runs_ret.
Qed.
Lemma start_total m plans r m' : do_threads m plans = Ok (r, m') -> exists n, total (start m plans) r m' n.
Proof.
  unfold total, start. cbn [threads wmem]. revert m r. induction plans as [|cs plans IH]; intros m r E; cbn [do_threads map pmap] in *.
  - injection E as <- <-. exists 0. reflexivity.
  - apply bind_ok in E as ([x m1] & E1 & E). apply bind_ok in E as ([xs m2] & E2 & E). cbn [fst snd] in *. injection E as <- <-.
    destruct (runs_calls _ _ _ _ E1) as (n1 & R1). destruct (IH _ _ E2) as (n2 & R2).
    exists (n1 + n2). apply then_ok. exists x, m1, n1, n2. split; [|split; [|lia]].
    + apply rest_ok. cbn [now todo answers cur]. exists [], [], m, 0, x, n1. repeat split; auto.
    + apply then_ok. exists xs, m2, n2, 0. split; [solve [auto]|]. split; [now apply stop_ok|lia].
Qed.
Lemma mapM_id {X} (l : list (res X)) r : mapM (fun x => x) l = Ok r -> l = map Ok r.
Proof.
  revert r. induction l as [|x l IH]; intros r E; cbn in *.
  - now injection E as <-.
  - apply bind_ok in E as (y & -> & E). apply bind_ok in E as (t & E & E'). injection E' as <-. cbn. f_equal. auto.
Qed.
Lemma finished_rest th m r m' n : finished th = true -> exec (rest_of th) m = Ok (r, m', n) -> m' = m /\ answers th = map Ok r /\ n = 0.
Proof.
  unfold finished. intros H E. apply rest_ok in E as (done & x & m1 & n1 & rs & n2 & E0 & E1 & E2 & -> & ->).
  destruct (now th); [discriminate|]. destruct (todo th); [|discriminate].
  apply stop_ok in E1 as (E1 & -> & ->). injection E1 as <-. apply stop_ok in E2 as (E2 & -> & ->). injection E2 as <-.
  rewrite !app_nil_r. split; auto. split; auto. now apply mapM_id.
Qed.
Lemma finished_total w r m n : all_finished w -> total w r m n -> m = wmem w /\ map (@answers T) (threads w) = map (map Ok) r.
Proof.
  unfold all_finished, total. destruct w as [mm ths]. cbn [threads wmem]. revert mm r n.
  induction ths as [|th ths IH]; intros mm r n H E; cbn [pmap map] in *.
  - apply stop_ok in E as (E & -> & ->). injection E as <-. auto.
  - apply then_ok in E as (x & m1 & n1 & n2 & E1 & E & ->). apply then_ok in E as (xs & m2 & n3 & n4 & E2 & E & ->).
    apply stop_ok in E as (E & -> & ->). injection E as <-.
    destruct (finished_rest _ _ _ _ _ (H th (or_introl eq_refl)) E1) as (-> & Ea & _).
    destruct (IH mm xs n3) as (-> & Es); auto. { intros t I. apply H. now right. }
    cbn. split; auto. f_equal; auto.
Qed.

Theorem serial plans m r m' sched : apart plans -> do_threads m plans = Ok (r, m') ->
  all_finished (run sched (start m plans)) ->
  wmem (run sched (start m plans)) = m' /\ map (@answers T) (threads (run sched (start m plans))) = map (map Ok) r.
Proof.
  intros Hap E H. destruct (start_total _ _ _ _ E) as (n & Ht).
  destruct (total_run plans sched _ _ _ _ Hap (start_fitting plans m) Ht) as (n' & Ht' & _).
  destruct (finished_total _ _ _ _ H Ht') as (-> & Ha). auto.
Qed.

(** ** Termination *)
Lemma unfinished_steps (w : world T) t th : nth_error (threads w) t = Some th -> finished th = false -> exists w', step w t = Some w'.
Proof.
  intros E H. unfold step. rewrite E. unfold tstep, finished in *. destruct (now th) as [[| | | |]|]; eauto.
  - destruct (put (wmem w) l x); eauto.
  - destruct (todo th); [discriminate|]. eauto.
Qed.
Lemma moves_app s1 s2 w : moves (s1 ++ s2) w = moves s1 w + moves s2 (run s1 w).
Proof. revert w. induction s1 as [|t s IH]; intros w; cbn; auto. destruct (step w t); rewrite IH; auto. Qed.
Lemma run_app s1 s2 w : run (s1 ++ s2) w = run s2 (run s1 w).
Proof. revert w. induction s1 as [|t s IH]; intros w; cbn; auto. Qed.
Lemma scheduled_moves s w t th : nth_error (threads w) t = Some th -> finished th = false -> In t s -> 1 <= moves s w.
Proof.
  intros E H. revert w E. induction s as [|u s IH]; intros w E I; [destruct I|]. cbn.
  destruct (step w u) as [w'|] eqn:Es; [lia|]. destruct I as [->|I]; [|auto].
  destruct (unfinished_steps w t th E H) as (w' & E'). congruence.
Qed.
Lemma step_length w t w' : step w t = Some w' -> length (threads w') = length (threads w).
Proof.
  unfold step. destruct (nth_error (threads w) t); [|discriminate]. destruct (tstep (wmem w) t0) as [[? ?]|]; [|discriminate].
  intros E. injection E as <-. cbn. apply upd_length.
Qed.
Lemma run_length s w : length (threads (run s w)) = length (threads w).
Proof.
  revert w. induction s as [|t s IH]; intros w; cbn; auto. rewrite IH. destruct (step w t) eqn:E; auto. eapply step_length; eauto.
Qed.
Lemma finished_stuck (w : world T) : all_finished w -> forall t, step w t = None.
Proof.
  intros H t. unfold step. destruct (nth_error (threads w) t) as [th|] eqn:E; auto. apply nth_error_In in E.
  specialize (H th E). unfold finished in H. unfold tstep. destruct (now th); [discriminate|]. destruct (todo th); [auto|discriminate].
Qed.
Lemma finished_run (w : world T) s : all_finished w -> run s w = w.
Proof. intros H. induction s as [|t s IH]; cbn; auto. rewrite (finished_stuck w H t). auto. Qed.
Lemma finished_all (w : world T) : forallb finished (threads w) = true <-> all_finished w.
Proof. apply forallb_forall. Qed.
Lemma all_finished_dec (w : world T) : all_finished w \/ exists t th, nth_error (threads w) t = Some th /\ finished th = false.
Proof.
  unfold all_finished. destruct (forallb finished (threads w)) eqn:E.
  - left. now apply forallb_forall.
  - right. induction (threads w) as [|th l IH]; cbn in *; [discriminate|]. destruct (finished th) eqn:Ef.
    + destruct (IH E) as (t & th' & H1 & H2). exists (S t), th'. auto.
    + exists 0, th. auto.
Qed.

(** rounds in which every thread gets a turn *)
Lemma rounds_move rounds k w : length (threads w) = k -> Forall (fun s => forall t, t < k -> In t s) rounds ->
  all_finished (run (concat rounds) w) \/ length rounds <= moves (concat rounds) w.
Proof.
  intros Lw F. revert w Lw. induction F as [|s rounds Hs F IH]; intros w Lw; cbn [concat].
  - right. cbn. lia.
  - rewrite run_app, moves_app. destruct (all_finished_dec w) as [D|(t & th & Et & Ef)].
    + left. rewrite (finished_run w s D), (finished_run w _ D). exact D.
    + assert (Lt : t < k) by (rewrite <- Lw; eapply nth_some_lt; eauto).
      pose proof (scheduled_moves s w t th Et Ef (Hs t Lt)) as M1.
      destruct (IH (run s w)) as [D|D]; [now rewrite run_length|auto|]. right. cbn [length]. lia.
Qed.

Lemma no_overhead l th : overheads l = 0 -> In th l -> finished th = true.
Proof.
  induction l as [|th0 l IH]; [easy|]. change (overheads (th0 :: l)) with (overhead th0 + overheads l).
  intros Z0 [->|I]; [|apply IH; auto; lia]. unfold overhead in Z0. unfold finished.
  destruct (now th); [lia|]. destruct (todo th); [reflexivity|cbn in Z0; lia].
Qed.

Theorem terminates plans m r m' : apart plans -> do_threads m plans = Ok (r, m') -> exists N,
  (forall sched, moves sched (start m plans) <= N) /\
  (forall rounds, N <= length rounds ->
     Forall (fun s => forall t, t < length plans -> In t s) rounds ->
     all_finished (run (concat rounds) (start m plans))).
Proof.
  intros Hap E. destruct (start_total _ _ _ _ E) as (n & Ht). exists (n + overheads (threads (start m plans))).
  assert (Bound : forall sched, moves sched (start m plans) <= n + overheads (threads (start m plans))).
  { intros sched. destruct (total_run plans sched _ _ _ _ Hap (start_fitting plans m) Ht) as (n' & _ & En). lia. }
  split; [exact Bound|]. intros rounds L F.
  assert (Ls : length (threads (start m plans)) = length plans) by (unfold start; cbn; apply map_length).
  destruct (rounds_move rounds (length plans) (start m plans) Ls F) as [D|D]; [exact D|].
  destruct (total_run plans (concat rounds) _ _ _ _ Hap (start_fitting plans m) Ht) as (n' & _ & En).
  assert (Z0 : overheads (threads (run (concat rounds) (start m plans))) = 0) by lia.
  intros th I. now apply (no_overhead (threads (run (concat rounds) (start m plans)))).
Qed.
End Schedules.
