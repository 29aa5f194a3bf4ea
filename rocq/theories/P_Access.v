(** * P_Access: [touches] lists every access of a step *)
Require Import List Bool Arith ZArith Lia.
Require Import Verif.M_Base Verif.M_Params Verif.M_Cache Verif.S_Access Verif.P_Base.
Import ListNotations.
Open Scope nat_scope.

Section P.
Context {V : Type} (gen : params -> res V) (tr : V -> V).

Lemma snoc_other {X} (l : list X) x a : nth_error (l ++ [x]) a <> nth_error l a -> a = length l.
Proof.
  intros H. destruct (lt_eq_lt_dec a (length l)) as [[Ha|Ha]|Ha]; auto; exfalso; apply H.
  - apply nth_error_app1; auto.
  - rewrite !(proj2 (nth_error_None _ _)); auto; [lia|rewrite app_length; simpl; lia].
Qed.

Lemma writes_listed (w w' : @world V) t : step gen tr w t = Some w' ->
  (wplain w' <> wplain w -> In (PlainMap, true) (touches w t)) /\
  (wtrans w' <> wtrans w -> In (TransMap, true) (touches w t)) /\
  (forall trans a, node_value w' trans a <> node_value w trans a -> In (Cell trans a, true) (touches w t)).
Proof.
  unfold step, touches. destruct (nth_error (threads w) t) as [th|]; [|discriminate].
  destruct (at_pc th); intros H;
  repeat match type of H with
  | context [match ?x with _ => _ end] => destruct x eqn:?
  end; try discriminate; inversion H; subst w'; clear H; unfold node_value, goto, set_thread; cbn [wplain wtrans wcells wtcells];
  (split; [try congruence|split; [try congruence|]]); cbn; auto;
  intros [|] c Hc; try congruence; apply snoc_other in Hc; subst c; auto.
Qed.

Lemma nth_put {X} (l l' : list X) t (x : X) : firstn t l = firstn t l' -> nth_error l t <> None ->
  nth_error (firstn t l ++ x :: skipn (S t) l) t = Some x.
Proof.
  intros _ H. rewrite nth_error_app2; rewrite firstn_length; pose proof (proj1 (nth_error_Some l t) H); [|lia].
  replace (t - Nat.min t (length l)) with 0 by lia. reflexivity.
Qed.

Lemma reads_listed (w w' w2 : @world V) t : step gen tr w t = Some w' ->
  threads w2 = threads w -> mutex w2 = mutex w -> trans_mutex w2 = trans_mutex w ->
  (forall x b, In (x, b) (touches w t) -> same_at x w w2) ->
  exists w2', step gen tr w2 t = Some w2' /\ nth_error (threads w2') t = nth_error (threads w') t /\
    mutex w2' = mutex w' /\ trans_mutex w2' = trans_mutex w' /\
    (forall x, In (x, true) (touches w t) -> same_at x w' w2').
Proof.
  intros H ET EM ETM HS. unfold step, touches in *. rewrite ET, EM, ETM.
  destruct (nth_error (threads w) t) as [th|] eqn:Et; [|discriminate].
  assert (P : forall x, nth_error (firstn t (threads w) ++ x :: skipn (S t) (threads w)) t = Some x).
  { intros x. apply (nth_put _ (threads w)); congruence. }
  destruct (at_pc th) as [ | | | | | | | | | | | | rq r] eqn:Ep.
  - destruct (todo th); [discriminate|]. inversion H; subst w'. eexists. split; [reflexivity|].
    unfold set_thread. cbn [threads mutex trans_mutex]. rewrite ET, EM, ETM, !P. repeat split. intros x [].
  - cbn in HS. destruct (HS TransMap false (or_introl eq_refl)) as (E1 & E2). rewrite <- E1.
    destruct (tfind p (wtrans w)); inversion H; subst w'; (eexists; split; [reflexivity|]);
    unfold goto, set_thread; cbn [threads mutex trans_mutex]; rewrite ET, EM, ETM, !P; repeat split; cbn; intros x [Hx|[]]; congruence.
  - destruct (mutex w); [discriminate|]. inversion H; subst w'. eexists. split; [reflexivity|].
    unfold goto, set_thread. cbn [threads mutex trans_mutex]. rewrite !P. repeat split. intros x [].
  - destruct (mutex w); [discriminate|]. inversion H; subst w'. eexists. split; [reflexivity|].
    unfold goto, set_thread. cbn [threads mutex trans_mutex]. rewrite !P. repeat split. intros x [].
  - cbn in HS. destruct (HS PlainMap false (or_introl eq_refl)) as (E1 & E2). rewrite <- E1.
    destruct (tfind p (wplain w)); inversion H; subst w'; (eexists; split; [reflexivity|]);
    unfold goto, set_thread; cbn [threads mutex trans_mutex]; rewrite ET, EM, ETM, !P; repeat split; cbn; intros x [Hx|[]]; congruence.
  - destruct (gen p); inversion H; subst w'; (eexists; split; [reflexivity|]);
    unfold goto, set_thread; cbn [threads mutex trans_mutex]; rewrite ET, EM, ETM, !P; repeat split; intros x [].
  - cbn in HS. destruct (HS PlainMap true (or_introl eq_refl)) as (E1 & E2). rewrite <- E1, <- E2.
    destruct (tinsert p (length (wcells w)) (wplain w)) as (m, a). inversion H; subst w'. eexists. split; [reflexivity|].
    unfold goto, set_thread; cbn [threads mutex trans_mutex]; rewrite !P. split; [reflexivity|]. split; [reflexivity|]. split; [reflexivity|].
    intros x [Hx|[Hx|[]]]; inversion Hx; subst x; cbn.
    + rewrite !app_length. auto.
    + unfold node_value. cbn. rewrite E2 at 2. rewrite !nth_error_app2, E2, !Nat.sub_diag by lia. reflexivity.
  - inversion H; subst w'. eexists. split; [reflexivity|].
    unfold goto, set_thread. cbn [threads mutex trans_mutex]. rewrite !P. repeat split. intros x [].
  - cbn in HS. pose proof (HS (Cell false a) false (or_introl eq_refl)) as E. unfold same_at, node_value in E.
    assert (ED : deref w2 false (Ok a) = deref w false (Ok a)) by (unfold deref, rd; cbn [bind]; rewrite E; reflexivity).
    rewrite ED. destruct (deref w false (Ok a)); inversion H; subst w'; (eexists; split; [reflexivity|]);
    unfold goto, set_thread; cbn [threads mutex trans_mutex]; rewrite ET, EM, ETM, !P; repeat split; cbn; intros x [Hx|[]]; congruence.
  - cbn in HS. destruct (HS TransMap true (or_introl eq_refl)) as (E1 & E2). rewrite <- E1, <- E2.
    destruct (tinsert p (length (wtcells w)) (wtrans w)) as (m, a). inversion H; subst w'. eexists. split; [reflexivity|].
    unfold goto, set_thread; cbn [threads mutex trans_mutex]; rewrite !P. split; [reflexivity|]. split; [reflexivity|]. split; [reflexivity|].
    intros x [Hx|[Hx|[]]]; inversion Hx; subst x; cbn.
    + rewrite !app_length. auto.
    + unfold node_value. cbn. rewrite E2 at 2. rewrite !nth_error_app2, E2, !Nat.sub_diag by lia. reflexivity.
  - inversion H; subst w'. eexists. split; [reflexivity|].
    unfold goto, set_thread. cbn [threads mutex trans_mutex]. rewrite !P. repeat split. intros x [].
  - destruct (trans_mutex w); [discriminate|]. inversion H; subst w'. eexists. split; [reflexivity|].
    unfold goto, set_thread. cbn [threads mutex trans_mutex]. rewrite !P. repeat split. intros x [].
  - assert (ED : deref w2 (rtrans rq) r = deref w (rtrans rq) r).
    { destruct r as [a| |]; try reflexivity. cbn in HS. pose proof (HS (Cell (rtrans rq) a) false (or_introl eq_refl)) as E.
      unfold same_at, node_value in E. unfold deref, rd; cbn [bind]; rewrite E; reflexivity. }
    rewrite ED. inversion H; subst w'. eexists. split; [reflexivity|].
    unfold set_thread; cbn [threads mutex trans_mutex]; rewrite ET, EM, ETM, !P. split; [reflexivity|]. split; [reflexivity|]. split; [reflexivity|].
    destruct r; cbn; [intros x [Hx|[]]; congruence|intros x []..].
Qed.
End P.
