(** * P_Threads: concurrent use of the matrix cache *)
Require Import List Bool Arith ZArith Lia.
Require Import Verif.M_Base Verif.M_Params Verif.M_Buffer Verif.M_Cache Verif.S_Cache
  Verif.P_Base Verif.P_Params Verif.P_Cache.
Import ListNotations.
Open Scope nat_scope.

Section Threads.
Context {V : Type} (gen : params -> res V) (tr : V -> V).
Notation step := (step gen tr).
Notation run := (run gen tr).
Notation world := (@world V).
Notation pc := (@pc V).

Definition holds (q : pc) : bool :=
  match q with PFind _ _ | PGen _ _ | PInsert _ _ _ | PUnlock _ _ _ => true | _ => false end.
Definition holds_trans (q : pc) : bool :=
  match q with
  | TFind _ | TInner _ | TCopy _ _ | TInsert _ _ | TUnlock _ _ => true
  | PFind o _ | PGen o _ | PInsert o _ _ | PUnlock o _ _ => o
  | _ => false
  end.
(** keys known to be missing *)
Definition no_plain (q : pc) : option params :=
  match q with PGen _ p | PInsert _ p _ => Some p | _ => None end.
Definition no_trans (q : pc) : option params :=
  match q with
  | TInner p | TCopy p _ | TInsert p _ => Some p
  | PFind true p | PGen true p | PInsert true p _ | PUnlock true p _ => Some p
  | _ => None
  end.
(** the call being executed *)
Definition current (q : pc) : list request :=
  match q with
  | Idle => []
  | TFind p | TInner p | TCopy p _ | TInsert p _ | TUnlock p _ | TLock p => [Request true p]
  | PLock p => [Request false p]
  | PFind o p | PGen o p | PInsert o p _ | PUnlock o p _ => [Request o p]
  | Use rq _ => [rq]
  end.

Definition ref_ok (w : world) (trans : bool) (p : params) (r : res nat) : Prop :=
  match expected gen tr (Request trans p) with
  | Ok v => exists a, r = Ok a /\ nth_error (if trans then wtcells w else wcells w) a = Some v
  | Throw => r = Throw
  | UB => r = UB
  end.

Definition data_ok (w : world) (q : pc) : Prop :=
  match q with
  | PInsert _ p v => gen p = Ok v
  | PUnlock _ p r => ref_ok w false p r
  | TCopy p a => ref_ok w false p (Ok a)
  | TInsert p v => exists v0, gen p = Ok v0 /\ v = tr v0
  | TUnlock p r => ref_ok w true p r
  | Use rq r => ref_ok w (rtrans rq) (rpar rq) r
  | _ => True
  end.

Definition pc_ok (w : world) (t : nat) (q : pc) : Prop :=
  (holds q = true <-> mutex w = Some t) /\
  (holds_trans q = true <-> trans_mutex w = Some t) /\
  (forall p, no_plain q = Some p -> tfind p (wplain w) = None) /\
  (forall p, no_trans q = Some p -> tfind p (wtrans w) = None) /\
  data_ok w q.

Definition maps_ok (w : world) : Prop :=
  (forall p a, tfind p (wplain w) = Some a ->
     exists v, gen p = Ok v /\ nth_error (wcells w) a = Some v) /\
  (forall p a, tfind p (wtrans w) = Some a ->
     exists v, gen p = Ok v /\ nth_error (wtcells w) a = Some (tr v)).

Definition trace (th : thread) : list request :=
  rev (map fst (@got V th)) ++ current (at_pc th) ++ todo th.

Definition thread_ok (w : world) (t : nat) (th : thread) : Prop :=
  pc_ok w t (at_pc th) /\
  Forall (fun e => snd e = expected gen tr (fst e)) (got th).

Record inv (calls : list (list request)) (w : world) : Prop := {
  inv_maps : maps_ok w;
  inv_threads : forall t th, nth_error (threads w) t = Some th -> thread_ok w t th;
  inv_trace : map trace (threads w) = calls;
  inv_m : forall t, mutex w = Some t -> t < length (threads w);
  inv_tm : forall t, trans_mutex w = Some t -> t < length (threads w)
}.

Lemma set_length (w : world) t th : t < length (threads w) ->
  length (threads (set_thread w t th)) = length (threads w).
Proof.
  intros H. unfold set_thread. cbn [threads]. rewrite app_length. cbn [length].
  rewrite firstn_length, skipn_length. lia.
Qed.
Lemma set_same (w : world) t th : t < length (threads w) ->
  nth_error (threads (set_thread w t th)) t = Some th.
Proof.
  intros H. unfold set_thread. cbn [threads].
  rewrite nth_error_app2 by (rewrite firstn_length; lia).
  rewrite firstn_length. replace (t - Nat.min t (length (threads w))) with 0 by lia. reflexivity.
Qed.
Lemma firstn_nth {X} (l : list X) : forall n i, i < n -> nth_error (firstn n l) i = nth_error l i.
Proof. induction l as [|x l IH]; intros [|n] [|i] H; cbn; auto; try lia. apply IH; lia. Qed.
Lemma skipn_nth {X} (l : list X) : forall n i, nth_error (skipn n l) i = nth_error l (n + i).
Proof. induction l as [|x l IH]; intros [|n] i; cbn; auto. destruct i; auto. Qed.
Lemma set_other (w : world) t th t' : t < length (threads w) -> t' <> t ->
  nth_error (threads (set_thread w t th)) t' = nth_error (threads w) t'.
Proof.
  intros H Hne. unfold set_thread. cbn [threads].
  destruct (Nat.lt_ge_cases t' t) as [Hl|Hl].
  - rewrite nth_error_app1 by (rewrite firstn_length; lia). apply firstn_nth; lia.
  - rewrite nth_error_app2 by (rewrite firstn_length; lia).
    rewrite firstn_length. replace (t' - Nat.min t (length (threads w))) with (S (t' - S t)) by lia.
    cbn [nth_error]. rewrite skipn_nth. f_equal. lia.
Qed.
Lemma set_map {Y} (f : thread -> Y) (w : world) t th th' : nth_error (threads w) t = Some th -> f th' = f th ->
  map f (threads (set_thread w t th')) = map f (threads w).
Proof.
  intros H E. unfold set_thread. cbn [threads].
  rewrite map_app. cbn [map]. rewrite E.
  rewrite <- (firstn_skipn t (threads w)) at 3. rewrite map_app. f_equal.
  assert (Hs : skipn t (threads w) = th :: skipn (S t) (threads w)).
  { revert H. generalize (threads w). clear. induction t; intros [|x l] H; cbn in *; try discriminate.
    - congruence.
    - rewrite IHt by auto. reflexivity. }
  rewrite Hs. reflexivity.
Qed.

Lemma ref_mono w w2 b p r : ref_ok w b p r ->
  (exists x, wcells w2 = wcells w ++ x) -> (exists x, wtcells w2 = wtcells w ++ x) -> ref_ok w2 b p r.
Proof.
  unfold ref_ok. intros H (x & Hx) (y & Hy). destruct (expected gen tr (Request b p)); auto.
  destruct H as (i & -> & H). exists i. split; auto.
  destruct b; [rewrite Hy | rewrite Hx]; apply nth_error_weaken; auto.
Qed.

Lemma data_mono w w2 q : data_ok w q ->
  (exists x, wcells w2 = wcells w ++ x) -> (exists x, wtcells w2 = wtcells w ++ x) -> data_ok w2 q.
Proof. destruct q; cbn; auto; intros; eapply ref_mono; eauto. Qed.

(** One thread moves, the others are not disturbed. *)
Lemma inv_update calls w w2 t th th' :
  inv calls w -> nth_error (threads w) t = Some th ->
  threads w2 = threads w ->
  maps_ok w2 ->
  (exists x, wcells w2 = wcells w ++ x) -> (exists x, wtcells w2 = wtcells w ++ x) ->
  (forall t', t' <> t -> (mutex w2 = Some t' <-> mutex w = Some t')) ->
  (forall t', t' <> t -> (trans_mutex w2 = Some t' <-> trans_mutex w = Some t')) ->
  (wplain w2 = wplain w \/ mutex w = Some t) ->
  (wtrans w2 = wtrans w \/ trans_mutex w = Some t) ->
  thread_ok w2 t th' -> trace th' = trace th ->
  inv calls (set_thread w2 t th').
Proof.
  intros I Ht Eth Hmaps Hc Htc Hm Htm Hp Htr Hok Htrace.
  assert (Hlt : t < length (threads w)) by (apply nth_error_Some; congruence).
  assert (Hlt2 : t < length (threads w2)) by (rewrite Eth; auto).
  constructor.
  - exact Hmaps.
  - intros t' thx Hx. destruct (Nat.eq_dec t' t) as [->|Hne].
    + rewrite set_same in Hx by auto. injection Hx as <-. exact Hok.
    + rewrite set_other in Hx by auto. rewrite Eth in Hx.
      destruct (inv_threads _ _ I _ _ Hx) as ((A1 & A2 & A3 & A4 & A5) & B).
      split; auto. unfold pc_ok. cbn [mutex trans_mutex wplain wtrans set_thread].
      repeat split.
      * intros H. apply Hm; auto. apply A1; auto.
      * intros H. apply A1, Hm; auto.
      * intros H. apply Htm; auto. apply A2; auto.
      * intros H. apply A2, Htm; auto.
      * intros p H. destruct Hp as [->|Hp]; auto.
        exfalso. assert (holds (at_pc thx) = true) by (destruct (at_pc thx); cbn in *; congruence).
        apply A1 in H0. congruence.
      * intros p H. destruct Htr as [->|Htr]; auto.
        exfalso. assert (holds_trans (at_pc thx) = true).
        { destruct (at_pc thx); cbn in *; try congruence; destruct outer; congruence. }
        apply A2 in H0. congruence.
      * eapply data_mono; eauto.
  - rewrite set_map with (th := th); auto; [|rewrite Eth; auto]. rewrite Eth. apply (inv_trace _ _ I).
  - intros t' H. rewrite set_length by auto. rewrite Eth. cbn [mutex set_thread] in H.
    destruct (Nat.eq_dec t' t) as [->|Hne]; auto. apply (inv_m _ _ I), Hm; auto.
  - intros t' H. rewrite set_length by auto. rewrite Eth. cbn [trans_mutex set_thread] in H.
    destruct (Nat.eq_dec t' t) as [->|Hne]; auto. apply (inv_tm _ _ I), Htm; auto.
Qed.

Ltac others := let t' := fresh "t'" in let Hn := fresh "Hn" in
  intros t' Hn; cbn; split; intros ?; congruence.
Ltac same := exists (@nil V); rewrite app_nil_r; reflexivity.

Lemma step_inv calls w t w' : inv calls w -> step w t = Some w' -> inv calls w'.
Proof.
  intros I Hs. unfold M_Cache.step in Hs.
  destruct (nth_error (threads w) t) as [th|] eqn:Et; [|discriminate].
  destruct (inv_threads _ _ I _ _ Et) as ((A1 & A2 & A3 & A4 & A5) & B).
  destruct (inv_maps _ _ I) as (M1 & M2).
  destruct (at_pc th) as [|p|p|p|o p|o p|o p v|o p r|p a|p v|p r|p|rq r] eqn:Epc;
    cbn [holds holds_trans no_plain no_trans data_ok] in *.
  - (* Idle *)
    destruct (todo th) as [|rq rest] eqn:Etd; [discriminate|]. injection Hs as <-.
    apply inv_update with (w := w) (th := th); auto; try same; try others; try exact (conj M1 M2).
    + split; auto. cbn [at_pc]. destruct rq as [[] p]; cbn; repeat split; try tauto; try (intros; discriminate).
    + unfold trace. cbn [at_pc todo got]. rewrite Epc, Etd. cbn [current].
      destruct rq as [[] p]; reflexivity.
  - (* TFind *)
    assert (Hm : trans_mutex w = Some t) by (apply A2; auto).
    destruct (tfind p (wtrans w)) as [a|] eqn:Ef; injection Hs as <-;
    (apply inv_update with (w := w) (th := th); auto; try same; try others; try exact (conj M1 M2);
      [split; auto; cbn; repeat split; auto; try tauto; try (intros; discriminate)
      |unfold trace; cbn; rewrite Epc; reflexivity]).
    + destruct (M2 _ _ Ef) as (v & H1 & H2). unfold data_ok, ref_ok, expected. cbn [rtrans rpar bind]. rewrite H1. cbn. eauto.
    + intros p0 H. injection H as <-. auto.
  - (* TInner *)
    assert (Hm : trans_mutex w = Some t) by (apply A2; auto).
    destruct (mutex w) eqn:Emx; [discriminate|]. injection Hs as <-.
    apply inv_update with (w := w) (th := th); auto; try same; try exact (conj M1 M2).
    + intros t' Hn. cbn. rewrite Emx. split; congruence.
    + others.
    + split; auto. cbn. repeat split; auto; try (intros; discriminate).
    + unfold trace; cbn; rewrite Epc; reflexivity.
  - (* PLock *)
    destruct (mutex w) eqn:Emx; [discriminate|]. injection Hs as <-.
    apply inv_update with (w := w) (th := th); auto; try same; try exact (conj M1 M2).
    + intros t' Hn. cbn. rewrite Emx. split; congruence.
    + others.
    + split; auto. cbn. repeat split; auto; try tauto; try (intros; discriminate).
    + unfold trace; cbn; rewrite Epc; reflexivity.
  - (* PFind *)
    assert (Hm : mutex w = Some t) by (apply A1; auto).
    destruct (tfind p (wplain w)) as [a|] eqn:Ef; injection Hs as <-;
    (apply inv_update with (w := w) (th := th); auto; try same; try others; try exact (conj M1 M2);
      [split; auto; cbn; repeat split; auto; try tauto; try (intros; discriminate)
      |unfold trace; cbn; rewrite Epc; reflexivity]).
    + destruct (M1 _ _ Ef) as (v & H1 & H2). unfold data_ok, ref_ok, expected. cbn [rtrans rpar bind]. rewrite H1. eauto.
    + intros p0 H. injection H as <-. auto.
  - (* PGen *)
    assert (Hm : mutex w = Some t) by (apply A1; auto).
    destruct (gen p) as [v| |] eqn:Eg; injection Hs as <-;
    (apply inv_update with (w := w) (th := th); auto; try same; try others; try exact (conj M1 M2);
      [split; auto; cbn; repeat split; auto; try tauto; try (intros; discriminate)
      |unfold trace; cbn; rewrite Epc; reflexivity]).
    + unfold data_ok, ref_ok, expected. cbn [rtrans rpar bind]. rewrite Eg. auto.
    + unfold data_ok, ref_ok, expected. cbn [rtrans rpar bind]. rewrite Eg. auto.
  - (* PInsert *)
    assert (Hm : mutex w = Some t) by (apply A1; auto).
    specialize (A3 _ eq_refl).
    destruct (tinsert_new p (length (wcells w)) _ A3) as (t' & H1 & H2 & H3).
    rewrite H1 in Hs. injection Hs as <-.
    apply inv_update with (w := w) (th := th); auto; try others.
    + split; cbn.
      * intros q a Hq. destruct (params_dec q p) as [->|Hne].
        { rewrite H2 in Hq. injection Hq as <-. exists v. split; auto. apply nth_error_snoc. }
        { rewrite H3 in Hq by auto. destruct (M1 _ _ Hq) as (v' & Ha & Hb). exists v'. split; auto.
          apply nth_error_weaken; auto. }
      * apply M2.
    + eexists; reflexivity.
    + same.
    + split; auto. cbn. repeat split; auto; try tauto; try (intros; discriminate).
      unfold data_ok, ref_ok, expected. cbn [rtrans rpar bind]. rewrite A5. eexists; split; [reflexivity|]. apply nth_error_snoc.
    + unfold trace; cbn; rewrite Epc; reflexivity.
  - (* PUnlock *)
    assert (Hm : mutex w = Some t) by (apply A1; auto).
    injection Hs as <-.
    apply inv_update with (w := w) (th := th); auto; try same; try others; try exact (conj M1 M2).
    + split; auto. cbn [at_pc]. destruct o; [destruct r as [a| |]|].
      * cbn. repeat split; auto; try tauto; try (intros; discriminate).
      * cbn. repeat split; auto; try tauto; try (intros; discriminate).
        unfold data_ok, ref_ok, expected in *. cbn [rtrans rpar bind] in *. destruct (gen p); cbn; auto; try congruence.
        destruct A5 as (? & ? & ?); discriminate.
      * cbn. repeat split; auto; try tauto; try (intros; discriminate).
        unfold data_ok, ref_ok, expected in *. cbn [rtrans rpar bind] in *. destruct (gen p); cbn; auto; try congruence.
        destruct A5 as (? & ? & ?); discriminate.
      * cbn. repeat split; auto; try tauto; try (intros; discriminate).
    + unfold trace; cbn; rewrite Epc. destruct o; [destruct r|]; reflexivity.
  - (* TCopy *)
    assert (Hm : trans_mutex w = Some t) by (apply A2; auto).
    unfold ref_ok, expected in A5. cbn [rtrans rpar bind] in A5.
    destruct (gen p) as [v0| |] eqn:Eg; try discriminate.
    destruct A5 as (a' & Ha & Hn). injection Ha as <-.
    cbn [deref bind] in Hs. rewrite (rd_some _ _ _ Hn) in Hs. injection Hs as <-.
    apply inv_update with (w := w) (th := th); auto; try same; try others; try exact (conj M1 M2).
    + split; auto. cbn. repeat split; auto; try tauto; try (intros; discriminate).
      exists v0. auto.
    + unfold trace; cbn; rewrite Epc; reflexivity.
  - (* TInsert *)
    assert (Hm : trans_mutex w = Some t) by (apply A2; auto).
    specialize (A4 _ eq_refl). destruct A5 as (v0 & Hv0 & ->).
    destruct (tinsert_new p (length (wtcells w)) _ A4) as (t' & H1 & H2 & H3).
    rewrite H1 in Hs. injection Hs as <-.
    apply inv_update with (w := w) (th := th); auto; try others.
    + split; cbn.
      * apply M1.
      * intros q a Hq. destruct (params_dec q p) as [->|Hne].
        { rewrite H2 in Hq. injection Hq as <-. exists v0. split; auto. apply nth_error_snoc. }
        { rewrite H3 in Hq by auto. destruct (M2 _ _ Hq) as (v' & Ha & Hb). exists v'. split; auto.
          apply nth_error_weaken; auto. }
    + same.
    + eexists; reflexivity.
    + split; auto. cbn. repeat split; auto; try tauto; try (intros; discriminate).
      unfold data_ok, ref_ok, expected. cbn [rtrans rpar bind]. rewrite Hv0. cbn. eexists; split; [reflexivity|]. apply nth_error_snoc.
    + unfold trace; cbn; rewrite Epc; reflexivity.
  - (* TUnlock *)
    assert (Hm : trans_mutex w = Some t) by (apply A2; auto).
    injection Hs as <-.
    apply inv_update with (w := w) (th := th); auto; try same; try others; try exact (conj M1 M2).
    + split; auto. cbn. repeat split; auto; try tauto; try (intros; discriminate).
    + unfold trace; cbn; rewrite Epc; reflexivity.
  - (* TLock *)
    destruct (trans_mutex w) eqn:Emx; [discriminate|]. injection Hs as <-.
    apply inv_update with (w := w) (th := th); auto; try same; try exact (conj M1 M2).
    + others.
    + intros t' Hn. cbn. rewrite Emx. split; congruence.
    + split; auto. cbn. repeat split; auto; try tauto; try (intros; discriminate).
    + unfold trace; cbn; rewrite Epc; reflexivity.
  - (* Use *)
    injection Hs as <-.
    apply inv_update with (w := w) (th := th); auto; try same; try others; try exact (conj M1 M2).
    + split.
      * cbn. repeat split; auto; try tauto; try (intros; discriminate).
      * cbn. constructor; auto. cbn. unfold ref_ok in A5. destruct rq as [b p]. cbn [rtrans rpar] in *.
        destruct (expected gen tr (Request b p)) as [v| |] eqn:Ee; [|subst r; reflexivity..].
        destruct A5 as (a & -> & Ha). cbn [deref bind]. apply rd_some in Ha. exact Ha.
    + unfold trace; cbn; rewrite Epc. cbn. rewrite <- app_assoc. reflexivity.
Qed.

Lemma run_inv calls s : forall w, inv calls w -> inv calls (run s w).
Proof.
  induction s as [|t s IH]; intros w I; cbn [M_Cache.run]; auto.
  apply IH. destruct (step w t) eqn:E; auto. eapply step_inv; eauto.
Qed.

Lemma start_inv calls : inv calls (@start V calls).
Proof.
  constructor.
  - split; intros p a H; discriminate.
  - intros t th H. unfold start in H. cbn [threads] in H. apply nth_error_In in H.
    apply in_map_iff in H. destruct H as (c & <- & _). split; cbn; [|constructor].
    repeat split; intros; discriminate.
  - unfold start. cbn [threads]. rewrite map_map. unfold trace. cbn. apply map_id.
  - intros t H. discriminate.
  - intros t H. discriminate.
Qed.

Lemma reach_inv calls s : inv calls (run s (@start V calls)).
Proof. apply run_inv, start_inv. Qed.

(** ** No race *)
Lemma no_race calls w : inv calls w -> ~ race w.
Proof.
  intros I (t1 & t2 & x & b1 & b2 & Hne & H1 & H2 & Hb).
  unfold touches in *.
  destruct (nth_error (threads w) t1) as [th1|] eqn:E1; [|destruct H1].
  destruct (nth_error (threads w) t2) as [th2|] eqn:E2; [|destruct H2].
  destruct (inv_threads _ _ I _ _ E1) as ((A1 & A2 & A3 & A4 & A5) & _).
  destruct (inv_threads _ _ I _ _ E2) as ((C1 & C2 & C3 & C4 & C5) & _).
  assert (HA : holds (at_pc th1) = true -> holds (at_pc th2) = true -> False).
  { intros P Q. apply A1 in P. apply C1 in Q. congruence. }
  assert (HT : holds_trans (at_pc th1) = true -> holds_trans (at_pc th2) = true -> False).
  { intros P Q. apply A2 in P. apply C2 in Q. congruence. }
  assert (HR : forall trans p a, ref_ok w trans p (Ok a) -> a < length (if trans then wtcells w else wcells w)).
  { intros tb p a. unfold ref_ok. destruct (expected _ _ _); try discriminate.
    intros (i & Hi & H). injection Hi as ->. apply nth_error_Some. congruence. }
  clear A1 A2 A3 A4 C1 C2 C3 C4 Hne E1 E2.
  destruct (at_pc th1) as [| | | | | | |? ? []| | |? []| |[[] q1] []]; cbn [In holds holds_trans data_ok rtrans rpar] in *;
  destruct (at_pc th2) as [| | | | | | |? ? []| | |? []| |[[] q2] []]; cbn [In holds holds_trans data_ok rtrans rpar] in *;
  repeat match goal with
  | H : False |- _ => destruct H
  | H : _ \/ _ |- _ => destruct H
  | H : (_, _) = (_, _) |- _ => injection H as ? ?; subst
  | H : Cell _ _ = Cell _ _ |- _ => injection H as ?; subst
  end; try discriminate; try (apply HA; reflexivity); try (apply HT; reflexivity);
  repeat match goal with
  | H : ref_ok w ?b _ (Ok _) |- _ => apply HR in H; cbn in H
  end; try lia.
Qed.

(** ** No deadlock *)
Lemma no_deadlock calls w : inv calls w ->
  (forall th, In th (threads w) -> finished th) \/ exists t, step w t <> None.
Proof.
  intros I.
  destruct (mutex w) as [t|] eqn:Em.
  - right. exists t. pose proof (inv_m _ _ I t Em) as Hl.
    destruct (nth_error (threads w) t) as [th|] eqn:E; [|apply nth_error_None in E; lia].
    destruct (inv_threads _ _ I _ _ E) as ((A1 & _) & _). apply A1 in Em.
    unfold M_Cache.step. rewrite E. destruct (at_pc th); cbn in Em; try discriminate.
    + destruct (tfind p (wplain w)); discriminate.
    + destruct (gen p); discriminate.
    + destruct (tinsert _ _ _); discriminate.
  - destruct (trans_mutex w) as [t|] eqn:Etm.
    + right. exists t. pose proof (inv_tm _ _ I t Etm) as Hl.
      destruct (nth_error (threads w) t) as [th|] eqn:E; [|apply nth_error_None in E; lia].
      destruct (inv_threads _ _ I _ _ E) as ((A1 & A2 & _) & _). apply A2 in Etm.
      unfold M_Cache.step. rewrite E, Em. destruct (at_pc th); cbn in Etm; try discriminate.
      * destruct (tfind p (wtrans w)); discriminate.
      * destruct (tfind p (wplain w)); discriminate.
      * destruct (gen p); discriminate.
      * destruct (tinsert _ _ _); discriminate.
      * destruct (deref w false (Ok a)); discriminate.
      * destruct (tinsert _ _ _); discriminate.
    + assert (D : (forall th, In th (threads w) -> finished th) \/
                  exists th, In th (threads w) /\ ~ finished th).
      { clear. induction (threads w) as [|x l IH]; [left; intros ? []|].
        assert (Dx : finished x \/ ~ finished x).
        { unfold finished. destruct (todo x), (at_pc x); try (right; intros (? & ?); discriminate). left; auto. }
        destruct Dx as [Dx|Dx]; [|right; exists x; split; [left|]; auto].
        destruct IH as [IH|(y & H1 & H2)]; [left|right; exists y; split; [right|]; auto].
        intros z [<-|Hz]; auto. }
      destruct D as [D|(th & Hin & Hnf)]; [left; auto|right].
      apply In_nth_error in Hin. destruct Hin as (t & E). exists t.
      destruct (inv_threads _ _ I _ _ E) as ((A1 & A2 & _) & _).
      rewrite Em in A1. rewrite Etm in A2.
      unfold M_Cache.step. rewrite E, Em, Etm.
      destruct (at_pc th) eqn:Epc; cbn in A1, A2;
        try (exfalso; apply proj1 in A1; specialize (A1 eq_refl); discriminate);
        try (exfalso; apply proj1 in A2; specialize (A2 eq_refl); discriminate);
        try discriminate.
      destruct (todo th) eqn:Etd; [|discriminate].
      exfalso. apply Hnf. split; auto.
Qed.

(** ** Every schedule ends *)
Definition weight (q : pc) : nat :=
  match q with
  | Idle => 0
  | Use _ _ => 1
  | TUnlock _ _ => 2
  | TInsert _ _ => 3
  | TCopy _ _ => 4
  | PUnlock _ _ _ => 5
  | PInsert _ _ _ => 6
  | PGen _ _ => 7
  | PFind _ _ => 8
  | PLock _ | TInner _ => 9
  | TFind _ => 10
  | TLock _ => 11
  end.
Definition left (th : @thread V) : nat := 12 * length (todo th) + weight (at_pc th).
Definition measure (w : world) : nat := list_sum (map left (threads w)).

Lemma set_measure w t th th' : nth_error (threads w) t = Some th -> left th' < left th ->
  list_sum (map left (threads (set_thread w t th'))) < list_sum (map left (threads w)).
Proof.
  intros H E. unfold set_thread. cbn [threads].
  rewrite <- (firstn_skipn t (threads w)) at 3.
  assert (Hs : skipn t (threads w) = th :: skipn (S t) (threads w)).
  { revert H. generalize (threads w). clear. induction t; intros [|x l] H; cbn in *; try discriminate.
    - congruence.
    - rewrite IHt by auto. reflexivity. }
  rewrite Hs, !map_app, !list_sum_app. cbn [map list_sum fold_right]. lia.
Qed.

Lemma step_measure w t w' : step w t = Some w' -> measure w' < measure w.
Proof.
  unfold M_Cache.step, measure. destruct (nth_error (threads w) t) as [th|] eqn:E; [|discriminate].
  assert (G : forall w2 th', threads w2 = threads w -> left th' < left th ->
            list_sum (map left (threads (set_thread w2 t th'))) < list_sum (map left (threads w))).
  { intros w2 th' Hw Hl. rewrite <- Hw. apply set_measure with (th := th); auto. rewrite Hw; auto. }
  destruct (at_pc th) as [|p|p|p|o p|o p|o p v|o p r|p a|p v|p r|p|rq r] eqn:Epc; unfold goto;
    repeat match goal with
    | |- context [match todo th with _ => _ end] => destruct (todo th) eqn:Etd
    | |- context [match mutex w with _ => _ end] => destruct (mutex w)
    | |- context [match trans_mutex w with _ => _ end] => destruct (trans_mutex w)
    | |- context [match tfind ?a ?b with _ => _ end] => destruct (tfind a b)
    | |- context [match gen ?a with _ => _ end] => destruct (gen a)
    | |- context [let '(_, _) := tinsert ?a ?b ?c in _] => destruct (tinsert a b c)
    | |- context [match deref ?a ?b ?c with _ => _ end] => destruct (deref a b c)
    end; intros Hs; try discriminate; injection Hs as <-; apply G; auto;
    unfold left; cbn [todo at_pc]; rewrite ?Epc, ?Etd; cbn [length weight]; try lia.
  - destruct (rtrans r); cbn [weight]; lia.
  - destruct o; [destruct r|]; cbn [weight]; lia.
Qed.

Lemma start_measure calls : measure (@start V calls) = 12 * length (concat calls).
Proof.
  unfold measure, start. cbn [threads]. rewrite map_map. unfold left. cbn.
  induction calls as [|c cs IH]; auto. cbn [map concat list_sum fold_right].
  rewrite app_length. unfold list_sum in IH. rewrite IH. lia.
Qed.

(** cells already written are never changed *)
Lemma step_cells w t w' : step w t = Some w' ->
  (exists x, wcells w' = wcells w ++ x) /\ (exists x, wtcells w' = wtcells w ++ x).
Proof.
  unfold M_Cache.step. destruct (nth_error (threads w) t) as [th|] eqn:E; [|discriminate].
  destruct (at_pc th) as [|p|p|p|o p|o p|o p v|o p r|p a|p v|p r|p|rq r] eqn:Epc; unfold goto;
    repeat match goal with
    | |- context [match todo th with _ => _ end] => destruct (todo th) eqn:Etd
    | |- context [match mutex w with _ => _ end] => destruct (mutex w)
    | |- context [match trans_mutex w with _ => _ end] => destruct (trans_mutex w)
    | |- context [match tfind ?a ?b with _ => _ end] => destruct (tfind a b)
    | |- context [match gen ?a with _ => _ end] => destruct (gen a)
    | |- context [let '(_, _) := tinsert ?a ?b ?c in _] => destruct (tinsert a b c)
    | |- context [match deref ?a ?b ?c with _ => _ end] => destruct (deref a b c)
    end; intros Hs; try discriminate; injection Hs as <-; cbn;
    split; first [ eexists; reflexivity | exists []; rewrite app_nil_r; reflexivity ].
Qed.

Lemma run_cells s : forall w,
  (exists x, wcells (run s w) = wcells w ++ x) /\ (exists x, wtcells (run s w) = wtcells w ++ x).
Proof.
  induction s as [|t s IH]; intros w; cbn [M_Cache.run].
  - split; exists []; rewrite app_nil_r; reflexivity.
  - destruct (step w t) as [w'|] eqn:E; auto.
    destruct (IH w') as ((x & Hx) & (y & Hy)). destruct (step_cells _ _ _ E) as ((x' & Hx') & (y' & Hy')).
    rewrite Hx, Hy, Hx', Hy', <- !app_assoc. split; eexists; reflexivity.
Qed.

Notation moves := (moves gen tr).
Lemma moves_bound s : forall w, moves s w <= measure w.
Proof.
  induction s as [|t s IH]; intros w; cbn [S_Cache.moves]; [lia|].
  destruct (step w t) as [w'|] eqn:E; auto. pose proof (step_measure _ _ _ E). specialize (IH w'). lia.
Qed.
Lemma run_app s1 : forall s2 w, run (s1 ++ s2) w = run s2 (run s1 w).
Proof. induction s1; intros; cbn; auto. Qed.
Lemma moves_app s1 : forall s2 w, moves (s1 ++ s2) w = moves s1 w + moves s2 (run s1 w).
Proof.
  induction s1 as [|t s IH]; intros; cbn [app S_Cache.moves M_Cache.run]; auto.
  destruct (step w t); rewrite IH; auto.
Qed.

Lemma all_finished_results calls w : inv calls w -> (forall th, In th (threads w) -> finished th) ->
  map (fun th => rev (got th)) (threads w) =
  map (map (fun rq => (rq, expected gen tr rq))) calls.
Proof.
  intros I F. rewrite <- (inv_trace _ _ I), map_map. apply map_ext_in. intros th Hin.
  destruct (F _ Hin) as (F1 & F2). unfold trace. rewrite F1, F2. cbn [current app]. rewrite app_nil_r.
  apply In_nth_error in Hin. destruct Hin as (t & E). destruct (inv_threads _ _ I _ _ E) as (_ & G).
  rewrite <- map_rev, map_map. rewrite <- (map_id (rev (got th))) at 1. apply map_ext_in.
  intros [rq r] H. apply in_rev in H. rewrite Forall_forall in G. specialize (G _ H). cbn in *. congruence.
Qed.

Lemma can_finish calls w : inv calls w ->
  exists s, forall th, In th (threads (run s w)) -> finished th.
Proof.
  remember (measure w) as n eqn:Hn. revert w Hn.
  induction n as [n IH] using lt_wf_ind. intros w -> I.
  destruct (no_deadlock calls w I) as [F|(t & Ht)].
  - exists []. exact F.
  - destruct (step w t) as [w'|] eqn:E; [|congruence].
    destruct (IH _ (step_measure _ _ _ E) w' eq_refl (step_inv _ _ _ _ I E)) as (s & Hs).
    exists (t :: s). cbn [M_Cache.run]. rewrite E. exact Hs.
Qed.
End Threads.

Lemma concurrent_ok (V : Type) (gen : params -> res V) (tr : V -> V)
  (calls : list (list request)) (s : list nat) :
  let w := run gen tr s (start calls) in
  ~ race w /\
  ((forall th, In th (threads w) -> finished th) \/ exists t, step gen tr w t <> None) /\
  (forall th rq r, In th (threads w) -> In (rq, r) (got th) -> r = expected gen tr rq) /\
  (forall s' trans a v, deref w trans (Ok a) = Ok v ->
     deref (run gen tr s' w) trans (Ok a) = Ok v).
Proof.
  intros w. pose proof (reach_inv gen tr calls s) as I. fold w in I. repeat split.
  - eapply no_race; eauto.
  - eapply no_deadlock; eauto.
  - intros th rq r Hin Hg. apply In_nth_error in Hin. destruct Hin as (t & E).
    destruct (inv_threads _ _ _ _ I _ _ E) as (_ & G). rewrite Forall_forall in G. apply (G _ Hg).
  - intros s' trans a v H. unfold deref in *. cbn [bind] in *.
    destruct (run_cells gen tr s' w) as ((x & Hx) & (y & Hy)).
    destruct trans; [rewrite Hy | rewrite Hx]; apply rd_some, nth_error_weaken;
      unfold rd in H; destruct (nth_error _ a); congruence.
Qed.

Lemma termination_ok (V : Type) (gen : params -> res V) (tr : V -> V)
  (calls : list (list request)) (s : list nat) :
  moves gen tr s (start calls) <= 12 * length (concat calls) /\
  (exists s', forall th, In th (threads (run gen tr (s ++ s') (start calls))) -> finished th) /\
  ((forall th, In th (threads (run gen tr s (start calls))) -> finished th) ->
   map (fun th => rev (got th)) (threads (run gen tr s (start calls))) =
   map (map (fun rq => (rq, expected gen tr rq))) calls).
Proof.
  repeat split.
  - rewrite <- (@start_measure V). apply moves_bound.
  - destruct (can_finish gen tr calls _ (reach_inv gen tr calls s)) as (s' & Hs).
    exists s'. rewrite run_app. exact Hs.
  - intros F. eapply all_finished_results; eauto. apply reach_inv.
Qed.

Lemma concurrent_matrices {T : Type} {A : Arith T} (calls : list (list request)) (s : list nat) :
  let gen p := let* padded := calc_padded (wtype p) (shape p) (steps p) in gen_matrices padded p in
  let w := run gen (map (map stranspose)) s (start calls) in
  forall th rq r, In th (threads w) -> In (rq, r) (got th) ->
  r = let* padded := calc_padded (wtype (rpar rq)) (shape (rpar rq)) (steps (rpar rq)) in
      if rtrans rq then gen_trans_matrices padded (rpar rq) else gen_matrices padded (rpar rq).
Proof.
  intros gen w th rq r H1 H2.
  destruct (concurrent_ok _ gen (map (map stranspose)) calls s) as (_ & _ & H & _).
  rewrite (H _ _ _ H1 H2). unfold expected, gen. destruct rq as [[] p]; cbn [rtrans rpar].
  - destruct (calc_padded _ _ _); reflexivity.
  - reflexivity.
Qed.
