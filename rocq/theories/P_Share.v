(** * P_Share: proofs about M_Share *)
Require Import List Bool Arith ZArith Lia.
Require Import Verif.M_Base Verif.M_Params Verif.M_Padding Verif.M_Wavelet Verif.M_Buffer Verif.M_View.
Require Import Verif.P_Base Verif.P_Object.
Require Import Verif.M_Share Verif.S_Share.
Import ListNotations.
Open Scope nat_scope.

Section Threads.
Context {T : Type} {A : Arith T}.
Implicit Types m : mem T.

(** ** Memory *)
Lemma put_ok m l x m' : put m l x = Ok m' -> exists b ch,
  nth_error m (lbuf l) = Some b /\ nth_error (bdec b) (lch l) = Some ch /\ lsub l < length ch /\
  m' = upd m (lbuf l) (Buffer (bpar b) (upd (bdec b) (lch l) (upd ch (lsub l) x))).
Proof.
  intros E. unfold put in E. apply bind_ok in E as (b & E1 & E). apply bind_ok in E as (ch & E2 & E).
  apply bind_ok in E as (ch' & E3 & E). apply bind_ok in E as (d & E4 & E).
  apply rd_ok in E1, E2. apply wr_ok in E3 as (L3 & ->). apply wr_ok in E4 as (L4 & ->).
  apply wr_ok in E as (L5 & ->). exists b, ch. auto.
Qed.
Lemma put_intro m l x b ch :
  nth_error m (lbuf l) = Some b -> nth_error (bdec b) (lch l) = Some ch -> lsub l < length ch ->
  put m l x = Ok (upd m (lbuf l) (Buffer (bpar b) (upd (bdec b) (lch l) (upd ch (lsub l) x)))).
Proof.
  intros E1 E2 L. unfold put. rewrite (rd_some _ _ _ E1). cbn. rewrite (rd_some _ _ _ E2). cbn.
  rewrite (wr_lt _ _ x L). cbn. rewrite (wr_lt _ _ _ (nth_some_lt _ _ _ E2)). cbn.
  now rewrite (wr_lt _ _ _ (nth_some_lt _ _ _ E1)).
Qed.
Lemma get_ok m l x : get m l = Ok x -> exists b ch,
  nth_error m (lbuf l) = Some b /\ nth_error (bdec b) (lch l) = Some ch /\ nth_error ch (lsub l) = Some x.
Proof.
  intros E. unfold get in E. apply bind_ok in E as (b & E1 & E). apply bind_ok in E as (ch & E2 & E).
  apply rd_ok in E1, E2, E. eauto.
Qed.
Lemma put_get m l x m' : put m l x = Ok m' -> exists y, get m l = Ok y.
Proof.
  intros (b & ch & E1 & E2 & L & _)%put_ok.
  destruct (nth_error ch (lsub l)) as [y|] eqn:E3; [|apply nth_error_None in E3; lia].
  exists y. unfold get. rewrite (rd_some _ _ _ E1). cbn. rewrite (rd_some _ _ _ E2). cbn. now rewrite (rd_some _ _ _ E3).
Qed.
Lemma get_put m l x y : get m l = Ok y -> exists m', put m l x = Ok m'.
Proof.
  intros (b & ch & E1 & E2 & E3)%get_ok. eexists. apply put_intro; eauto. eapply nth_some_lt; eauto.
Qed.

(** the same channel *)
Definition at_ (l : loc) (i c : nat) := lbuf l = i /\ lch l = c.

Lemma put_head m l x m' i : put m l x = Ok m' ->
  match nth_error m i, nth_error m' i with
  | Some b, Some b' => bpar b' = bpar b /\ length (bdec b') = length (bdec b)
  | None, None => True
  | _, _ => False
  end.
Proof.
  intros (b & ch & E1 & E2 & L & ->)%put_ok. rewrite upd_nth.
  destruct (Nat.eqb_spec i (lbuf l)) as [->|N].
  - rewrite E1. rewrite (proj2 (Nat.ltb_lt _ _) (nth_some_lt _ _ _ E1)). cbn. now rewrite upd_length.
  - destruct (nth_error m i); auto.
Qed.
(** what programs see of a buffer's head *)
Definition head m i : res (params * nat) := let* b := rd m i in Ok (bpar b, length (bdec b)).
Lemma put_head_eq m l x m' i : put m l x = Ok m' -> head m' i = head m i.
Proof.
  intros H. apply (put_head m l x m' i) in H. unfold head, rd.
  destruct (nth_error m i), (nth_error m' i); cbn; try easy. now destruct H as (-> & ->).
Qed.
Lemma put_size m l x m' i c : put m l x = Ok m' -> size m' i c = size m i c.
Proof.
  intros (b & ch & E1 & E2 & L & ->)%put_ok. unfold size, rd. rewrite upd_nth.
  destruct (Nat.eqb_spec i (lbuf l)) as [->|N]; [|reflexivity].
  rewrite E1, (proj2 (Nat.ltb_lt _ _) (nth_some_lt _ _ _ E1)). cbn. rewrite upd_nth.
  destruct (Nat.eqb_spec c (lch l)) as [->|N]; [|reflexivity].
  rewrite E2, (proj2 (Nat.ltb_lt _ _) (nth_some_lt _ _ _ E2)). cbn. now rewrite upd_length.
Qed.
Lemma put_get_other m l x m' l' : put m l x = Ok m' -> ~ at_ l (lbuf l') (lch l') -> get m' l' = get m l'.
Proof.
  intros (b & ch & E1 & E2 & L & ->)%put_ok N. unfold get, rd. rewrite upd_nth.
  destruct (Nat.eqb_spec (lbuf l') (lbuf l)) as [e|]; [|reflexivity].
  rewrite e, E1, (proj2 (Nat.ltb_lt _ _) (nth_some_lt _ _ _ E1)). cbn. rewrite upd_nth.
  destruct (Nat.eqb_spec (lch l') (lch l)) as [e'|]; [|reflexivity]. exfalso. apply N. now split.
Qed.
Lemma put_put m l x m1 l' x' m2 : put m l x = Ok m1 -> put m l' x' = Ok m2 -> ~ at_ l (lbuf l') (lch l') ->
  exists m', put m1 l' x' = Ok m' /\ put m2 l x = Ok m'.
Proof.
  intros (b & ch & E1 & E2 & L & ->)%put_ok (b' & ch' & E1' & E2' & L' & ->)%put_ok N.
  destruct (Nat.eq_dec (lbuf l) (lbuf l')) as [e|Nb].
  - assert (Nc : lch l <> lch l') by (intros e'; apply N; now split).
    rewrite <- e in *. rewrite E1 in E1'. injection E1' as <-.
    eexists. split.
    + apply put_intro with (b := Buffer (bpar b) (upd (bdec b) (lch l) (upd ch (lsub l) x))) (ch := ch'); auto.
      * rewrite <- e. apply upd_nth_eq. eapply nth_some_lt; eauto.
      * cbn. now rewrite upd_nth_neq.
    + cbn [bpar bdec]. rewrite <- e.
      rewrite (put_intro _ l x (Buffer (bpar b) (upd (bdec b) (lch l') (upd ch' (lsub l') x'))) ch); auto.
      * cbn [bpar bdec]. rewrite !upd_upd. do 3 f_equal. apply upd_comm; auto.
      * apply upd_nth_eq. eapply nth_some_lt; eauto.
      * cbn. now rewrite upd_nth_neq by auto.
  - eexists. split.
    + apply put_intro with (b := b') (ch := ch'); auto. now rewrite upd_nth_neq.
    + rewrite (put_intro _ l x b ch); auto; [|now rewrite upd_nth_neq by congruence]. f_equal. apply upd_comm. congruence.
Qed.

(** ** A program on its own, with the number of its accesses *)
Fixpoint exec {X} (a : prog T X) m : res (X * mem T * nat) :=
  match a with
  | Stop r => let* x := r in Ok (x, m, 0)
  | Head i k =>
      let* h := head m i in let* o := exec (k (fst h) (snd h)) m in Ok (fst o, S (snd o))
  | Size i c k => let* n := size m i c in let* o := exec (k n) m in Ok (fst o, S (snd o))
  | Get l k => let* x := get m l in let* o := exec (k x) m in Ok (fst o, S (snd o))
  | Put l x k => let* m' := put m l x in let* o := exec k m' in Ok (fst o, S (snd o))
  end.

(** footprint of a program *)
Fixpoint within {X} (R W : nat -> nat -> Prop) (a : prog T X) : Prop :=
  match a with
  | Stop _ => True
  | Head i k => forall p n, within R W (k p n)
  | Size i c k => forall n, within R W (k n)
  | Get l k => R (lbuf l) (lch l) /\ forall x, within R W (k x)
  | Put l x k => W (lbuf l) (lch l) /\ within R W k
  end.

Lemma exec_head {X} (a : prog T X) m x m' n i : exec a m = Ok (x, m', n) -> head m' i = head m i.
Proof.
  revert m x m' n. induction a as [r|j k IH|j c k IH|l k IH|l y k IH]; cbn; intros m x m' n E.
  - apply bind_ok in E as (x0 & _ & E). congruence.
  - apply bind_ok in E as (h & _ & E). apply bind_ok in E as ([[? ?] ?] & E1 & E). injection E as -> -> _. eauto.
  - apply bind_ok in E as (h & _ & E). apply bind_ok in E as ([[? ?] ?] & E1 & E). injection E as -> -> _. eauto.
  - apply bind_ok in E as (h & _ & E). apply bind_ok in E as ([[? ?] ?] & E1 & E). injection E as -> -> _. eauto.
  - apply bind_ok in E as (m1 & P & E). apply bind_ok in E as ([[? ?] ?] & E1 & E). injection E as -> -> _.
    apply IH in E1. rewrite E1. eapply put_head_eq; eauto.
Qed.
Lemma exec_size {X} (a : prog T X) m x m' n i c : exec a m = Ok (x, m', n) -> size m' i c = size m i c.
Proof.
  revert m x m' n. induction a as [r|j k IH|j d k IH|l k IH|l y k IH]; cbn; intros m x m' n E.
  - apply bind_ok in E as (x0 & _ & E). congruence.
  - apply bind_ok in E as (h & _ & E). apply bind_ok in E as ([[? ?] ?] & E1 & E). injection E as -> -> _. eauto.
  - apply bind_ok in E as (h & _ & E). apply bind_ok in E as ([[? ?] ?] & E1 & E). injection E as -> -> _. eauto.
  - apply bind_ok in E as (h & _ & E). apply bind_ok in E as ([[? ?] ?] & E1 & E). injection E as -> -> _. eauto.
  - apply bind_ok in E as (m1 & P & E). apply bind_ok in E as ([[? ?] ?] & E1 & E). injection E as -> -> _.
    apply IH in E1. rewrite E1. eapply put_size; eauto.
Qed.
Lemma exec_get {X} R W (a : prog T X) m x m' n l : within R W a -> ~ W (lbuf l) (lch l) ->
  exec a m = Ok (x, m', n) -> get m' l = get m l.
Proof.
  intros H N. revert m x m' n H. induction a as [r|j k IH|j d k IH|l' k IH|l' y k IH]; cbn; intros m x m' n H E.
  - apply bind_ok in E as (x0 & _ & E). congruence.
  - apply bind_ok in E as (h & _ & E). apply bind_ok in E as ([[? ?] ?] & E1 & E). injection E as -> -> _. eauto.
  - apply bind_ok in E as (h & _ & E). apply bind_ok in E as ([[? ?] ?] & E1 & E). injection E as -> -> _. eauto.
  - destruct H as (_ & H). apply bind_ok in E as (h & _ & E). apply bind_ok in E as ([[? ?] ?] & E1 & E). injection E as -> -> _. eauto.
  - destruct H as (H0 & H). apply bind_ok in E as (m1 & P & E). apply bind_ok in E as ([[? ?] ?] & E1 & E). injection E as -> -> _.
    apply IH in E1; auto. rewrite E1. eapply put_get_other; eauto. intros (e1 & e2). apply N. now rewrite <- e1, <- e2.
Qed.
(** a write elsewhere commutes with a whole program *)
Lemma exec_put {X} R W (a : prog T X) m m1 l y x m' n : within R W a ->
  ~ W (lbuf l) (lch l) -> ~ R (lbuf l) (lch l) ->
  put m l y = Ok m1 -> exec a m = Ok (x, m', n) ->
  exists m1', put m' l y = Ok m1' /\ exec a m1 = Ok (x, m1', n).
Proof.
  intros H NW NR. revert m m1 x m' n H. induction a as [r|j k IH|j d k IH|l' k IH|l' z k IH]; cbn; intros m m1 x m' n H P E.
  - apply bind_ok in E as (x0 & -> & E). injection E as -> -> <-. exists m1. now split.
  - apply bind_ok in E as (h & Eh & E). apply bind_ok in E as ([[? ?] ?] & E1 & E). injection E as -> -> <-.
    destruct (IH _ _ _ _ _ _ _ (H _ _) P E1) as (m1' & P' & E'). exists m1'. split; auto.
    rewrite (put_head_eq _ _ _ _ _ P), Eh. cbn. now rewrite E'.
  - apply bind_ok in E as (h & Eh & E). apply bind_ok in E as ([[? ?] ?] & E1 & E). injection E as -> -> <-.
    destruct (IH _ _ _ _ _ _ (H _) P E1) as (m1' & P' & E'). exists m1'. split; auto.
    rewrite (put_size _ _ _ _ _ _ P), Eh. cbn. now rewrite E'.
  - destruct H as (HR & H). apply bind_ok in E as (h & Eh & E). apply bind_ok in E as ([[? ?] ?] & E1 & E). injection E as -> -> <-.
    destruct (IH _ _ _ _ _ _ (H _) P E1) as (m1' & P' & E'). exists m1'. split; auto.
    rewrite (put_get_other _ _ _ _ l' P), Eh. { cbn. now rewrite E'. }
    intros (e1 & e2). apply NR. now rewrite e1, e2.
  - destruct H as (HW & H). apply bind_ok in E as (m2 & P2 & E). apply bind_ok in E as ([[? ?] ?] & E1 & E). injection E as -> -> <-.
    destruct (put_put _ _ _ _ _ _ _ P P2) as (m3 & P3 & P4). { intros (e1 & e2). apply NW. now rewrite e1, e2. }
    destruct (IH _ _ _ _ _ H P4 E1) as (m1' & P' & E'). exists m1'. split; auto.
    rewrite P3. cbn. now rewrite E'.
Qed.

Lemma within_mono {X} (R W R' W' : nat -> nat -> Prop) (a : prog T X) :
  (forall i c, R i c -> R' i c) -> (forall i c, W i c -> W' i c) -> within R W a -> within R' W' a.
Proof. intros HR HW. induction a; cbn; firstorder. Qed.
Lemma within_then {X Y} R W (a : prog T X) (f : X -> prog T Y) :
  within R W a -> (forall x, within R W (f x)) -> within R W (then_ a f).
Proof.
  intros H Hf. induction a as [r|j k IH|j d k IH|l' k IH|l' z k IH]; cbn in *.
  - destruct r; cbn; auto.
  - auto.
  - auto.
  - destruct H; auto.
  - destruct H; auto.
Qed.
Lemma within_loop {S} R W n st (body : nat -> S -> prog T S) s :
  (forall i s, st <= i < st + n -> within R W (body i s)) -> within R W (ploop n st body s).
Proof.
  revert st s. induction n as [|n IH]; intros st s H; cbn; [exact I|].
  apply within_then; [apply H; lia|]. intros x. apply IH. intros i s' L. apply H. lia.
Qed.
Lemma within_map {X Y} R W (f : X -> prog T Y) l : (forall x, In x l -> within R W (f x)) -> within R W (pmap f l).
Proof.
  induction l as [|x l IH]; intros H; cbn; [exact I|].
  apply within_then; [apply H; now left|]. intros y. apply within_then; [|intros; exact I].
  apply IH. intros z I. apply H. now right.
Qed.

(** ** Footprints of the calls *)
Lemma within_store (R W : nat -> nat -> Prop) i c off l : W i c -> within R W (pstore i c off l).
Proof. intros H. revert off. induction l as [|s l IH]; intros off; cbn; auto. Qed.
Lemma within_decompose (R W : nat -> nat -> Prop) i p data den st n : (forall c, st <= c < st + n -> W i c) ->
  within R W (pdecompose_impl i p data den st n).
Proof.
  intros H. unfold pdecompose_impl. apply within_then; [exact I|]. intros ok. destruct ok; cbn [negb]; [|exact I].
  apply within_then; [exact I|]. intros padded. apply within_then; [exact I|]. intros stack.
  apply within_then; [exact I|]. intros dmat. apply within_then; [|intros; exact I].
  apply within_loop. intros ch _ L. apply within_then; [exact I|]. intros d. unfold pdecompose_channel.
  apply within_then; [exact I|]. intros channel. apply within_then.
  - apply within_loop. intros s x Ls. apply within_then; [exact I|]. intros wm. apply within_then; [exact I|].
    intros r. apply within_then; [|intros; exact I]. apply within_store. auto.
  - intros low. cbn. auto.
Qed.
Lemma within_compose (R W : nat -> nat -> Prop) i p k st n : (forall c, st <= c < st + n -> R i c) ->
  within R W (pcompose_impl i p k st n).
Proof.
  intros H. unfold pcompose_impl. apply within_then; [exact I|]. intros stack.
  apply within_then; [exact I|]. intros dmat. apply within_then; [|intros; exact I].
  apply within_map. intros c L%in_seq. assert (Hc : R i (st + c)) by (apply H; lia).
  unfold pcompose_channel. apply within_then.
  - cbn. intros len. apply within_map. intros s _. cbn. auto.
  - intros sub. split; [exact Hc|]. intros deepest. apply within_then; [|intros; exact I].
    apply within_loop. intros it ch _. apply within_then; [exact I|]. intros wm. unfold pcompose_step.
    destruct (dimension p =? 1).
    + apply within_then; [exact I|]. intros _. split; [exact Hc|]. intros hi.
      apply within_then; [exact I|]. intros lc. apply within_then; [exact I|]. intros hc.
      apply within_then; [exact I|]. intros w0. apply within_then; [exact I|]. intros r. exact I.
    + apply within_then; [exact I|]. intros _. split; [exact Hc|]. intros lh. split; [exact Hc|]. intros hl.
      split; [exact Hc|]. intros hh. apply within_then; [exact I|]. intros w0. apply within_then; [exact I|]. intros; exact I.
Qed.
Lemma within_call (c : call T) : within (reads c) (writes c) (prog_of c).
Proof.
  destruct c as [i data den|i v data den|i sf|i v sf|i]; cbn [prog_of within]; intros p n.
  - apply within_then; [|intros; exact I]. apply within_decompose. intros; reflexivity.
  - apply within_then; [exact I|]. intros ok. destruct ok; cbn [negb]; [|exact I].
    apply within_then; [exact I|]. intros _. destruct (odd_range v) eqn:O.
    + apply within_then; [exact I|]. intros; exact I.
    + apply within_then; [|intros; exact I]. apply within_decompose. intros c L. cbn.
      unfold odd_range in O. apply orb_false_iff in O as (O1 & O2). apply Z.ltb_ge in O1, O2. split; [reflexivity|lia].
  - apply within_then; [exact I|]. intros k. apply within_then; [|intros; exact I].
    apply within_compose. intros; reflexivity.
  - apply within_then; [exact I|]. intros ok. destruct ok; cbn [negb]; [|exact I].
    apply within_then; [exact I|]. intros k. destruct (Z.ltb_spec (vcount v) 0); [exact I|].
    destruct ((vstart v <? 0) && (0 <? vcount v))%Z eqn:O; [exact I|].
    apply within_then; [|intros; exact I]. apply within_compose. intros c L. cbn.
    apply andb_false_iff in O as [O|O]; apply Z.ltb_ge in O; (split; [reflexivity|lia]).
  - apply within_then; [|intros; exact I]. apply within_map. intros c _. cbn. intros len.
    apply within_map. intros s _. cbn. auto.
Qed.
End Threads.
