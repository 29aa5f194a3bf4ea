(** * P_Object: objects in memory behave as values. *)
Require Import List Bool Arith ZArith Lia.
Require Import Verif.M_Base Verif.M_Params Verif.M_Buffer Verif.M_View Verif.M_Object Verif.S_Object.
Require Import Verif.P_Base.
Import ListNotations.
Open Scope nat_scope.

Section Object.
Context {T : Type} {A : Arith T}.
Notation heap := (heap T).
Notation world := (world T).
Notation cell h a := (nth_error (hcells h) a).
Notation obj h i := (nth_error (hobjs h) i).

Definition rel_slot (h : heap) (o : option (option nat)) (s : slot T) : Prop :=
  match o, s with
  | None, Gone => True
  | Some None, Hollow => True
  | Some (Some a), Full b => cell h a = Some (Some b)
  | _, _ => False
  end.
Definition rel_ref (h : heap) (r : nat * nat) (q : option nat * nat) : Prop :=
  snd r = snd q /\
  match fst q with
  | Some i => obj h i = Some (Some (Some (fst r)))
  | None => cell h (fst r) = Some None
  end.
Record ok (h : heap) (w : world) : Prop := {
  ok_slots : Forall2 (rel_slot h) (hobjs h) (slots w);
  ok_inj : forall i j a, owns h i a -> owns h j a -> i = j;
  ok_owned : forall a b, cell h a = Some (Some b) -> exists i, owns h i a;
  ok_views : hviews h = views w;
  ok_refs : Forall2 (rel_ref h) (hrefs h) (owners w)
}.

(** results that correspond *)
Definition rel_res (r : res (heap * outcome T)) (s : res (world * outcome T)) : Prop :=
  match r, s with
  | Ok (h, o), Ok (w, o') => o = o' /\ ok h w
  | Throw, Throw => True
  | UB, UB => True
  | _, _ => False
  end.

Lemma F2_length {X Y} (R : X -> Y -> Prop) l l' : Forall2 R l l' -> length l = length l'.
Proof. induction 1; cbn [length]; congruence. Qed.
Lemma F2_impl {X Y} (R R' : X -> Y -> Prop) l l' : (forall x y, R x y -> R' x y) -> Forall2 R l l' -> Forall2 R' l l'.
Proof. intros H. induction 1; constructor; auto. Qed.
Lemma Forall2_nth {X Y} (R : X -> Y -> Prop) l l' : Forall2 R l l' <->
  length l = length l' /\ forall i x y, nth_error l i = Some x -> nth_error l' i = Some y -> R x y.
Proof.
  split.
  - intros H. split; [eapply F2_length; eauto|]. induction H as [|a b l l' Hab H IH]; intros i x y.
    + destruct i; discriminate.
    + destruct i as [|i]; cbn [nth_error]; [intros; congruence|]. apply IH.
  - intros [HL H]. revert l' HL H. induction l as [|a l IH]; intros [|b l'] HL H; cbn in HL; try lia; constructor.
    + apply (H 0); reflexivity.
    + apply IH; [lia|]. intros i. apply (H (S i)).
Qed.
Lemma upd_nth {X} (l : list X) i j a : nth_error (upd l i a) j =
  if j =? i then (if i <? length l then Some a else None) else nth_error l j.
Proof.
  destruct (Nat.eqb_spec j i) as [->|N].
  - destruct (Nat.ltb_spec i (length l)).
    + apply upd_nth_eq; auto.
    + apply nth_error_None. rewrite upd_length. lia.
  - apply upd_nth_neq. auto.
Qed.
Lemma app_nth {X} (l : list X) a j : nth_error (l ++ [a]) j =
  if j <? length l then nth_error l j else if j =? length l then Some a else None.
Proof.
  destruct (Nat.ltb_spec j (length l)).
  - apply nth_error_app1; auto.
  - rewrite nth_error_app2 by auto. destruct (Nat.eqb_spec j (length l)).
    + subst. rewrite Nat.sub_diag. reflexivity.
    + apply nth_error_None. cbn [length]. lia.
Qed.
Lemma nth_some_lt {X} (l : list X) i a : nth_error l i = Some a -> i < length l.
Proof. intros H. apply nth_error_Some. congruence. Qed.

Lemma nth_ext_eq {X} (l l' : list X) : (forall i, nth_error l i = nth_error l' i) -> l = l'.
Proof.
  revert l'. induction l as [|a l IH]; intros [|b l'] H; auto.
  - specialize (H 0); discriminate.
  - specialize (H 0); discriminate.
  - f_equal; [specialize (H 0); cbn in H; congruence|]. apply IH. intros i. apply (H (S i)).
Qed.
Lemma upd_upd {X} (l : list X) i a b : upd (upd l i a) i b = upd l i b.
Proof. apply nth_ext_eq. intros k. rewrite !upd_nth, upd_length. destruct (k =? i); auto. Qed.
Lemma upd_comm {X} (l : list X) i j a b : i <> j -> upd (upd l i a) j b = upd (upd l j b) i a.
Proof.
  intros N. apply nth_ext_eq. intros k. rewrite !upd_nth, !upd_length.
  destruct (Nat.eqb_spec k i), (Nat.eqb_spec k j); auto. congruence.
Qed.
Lemma upd_same {X} (l : list X) i a : nth_error l i = Some a -> upd l i a = l.
Proof.
  intros H. apply nth_ext_eq. intros k. rewrite upd_nth. destruct (Nat.eqb_spec k i) as [->|]; auto.
  destruct (Nat.ltb_spec i (length l)); auto. apply nth_some_lt in H. lia.
Qed.
Lemma upd_app {X} (l : list X) i a b : i < length l -> upd (l ++ [b]) i a = upd l i a ++ [b].
Proof.
  intros L. apply nth_ext_eq. intros k. rewrite upd_nth, !app_nth, app_length, upd_length, upd_nth. cbn [length].
  destruct (Nat.eqb_spec k i) as [->|]; auto.
  destruct (Nat.ltb_spec i (length l + 1)), (Nat.ltb_spec i (length l)); auto; lia.
Qed.

Section Step.
Variables (h : heap) (w : world).
Hypothesis OK : ok h w.

Lemma len_objs : length (hobjs h) = length (slots w).
Proof. eapply F2_length, OK. Qed.
(** the object of a slot *)
Lemma slot_obj i s : nth_error (slots w) i = Some s -> exists o, obj h i = Some o /\ rel_slot h o s.
Proof.
  intros H. destruct (obj h i) as [o|] eqn:E.
  - exists o. split; auto. destruct (proj1 (Forall2_nth _ _ _) (ok_slots h w OK)) as [_ X]. eapply X; eauto.
  - apply nth_error_None in E. apply nth_some_lt in H. pose proof len_objs. lia.
Qed.
Lemma no_obj i : nth_error (slots w) i = None -> obj h i = None.
Proof. rewrite !nth_error_None. pose proof len_objs. lia. Qed.

(** reading the parts *)
Lemma impl_alive i : match alive w i with
  | Ok _ => exists q, impl_of h i = Ok q /\ obj h i = Some (Some q)
  | UB => impl_of h i = UB | Throw => False end.
Proof.
  unfold alive, impl_of, rd. destruct (nth_error (slots w) i) as [s|] eqn:E; cbn [bind].
  - destruct (slot_obj i s E) as (o & -> & R). cbn [bind].
    destruct s, o as [[a|]|]; cbn in R; try contradiction; eauto.
  - rewrite (no_obj i E). reflexivity.
Qed.
Lemma cell_content i : match content w i with
  | Ok b => exists a, cell_of h i = Ok a /\ load h a = Ok b /\ owns h i a /\ cell h a = Some (Some b)
  | UB => deref h i = UB /\ cell_of h i = UB | Throw => False end.
Proof.
  unfold content, deref, cell_of, impl_of, rd. destruct (nth_error (slots w) i) as [s|] eqn:E; cbn [bind].
  - destruct (slot_obj i s E) as (o & Eo & R). rewrite Eo. cbn [bind].
    destruct s, o as [[a|]|]; cbn in R; try contradiction; cbn [bind]; auto.
    exists a. unfold load, rd. rewrite R. cbn [bind]. auto.
  - rewrite (no_obj i E). auto.
Qed.
Lemma deref_content i : deref h i = content w i.
Proof.
  pose proof (cell_content i) as H. destruct (content w i) as [b| |].
  - destruct H as (a & E1 & E2 & _). unfold deref. rewrite E1. exact E2.
  - contradiction.
  - apply H.
Qed.
Lemma cell_lt i a : owns h i a -> a < length (hcells h).
Proof.
  intros H. destruct (nth_error (slots w) i) as [s|] eqn:E.
  - destruct (slot_obj i s E) as (o & Eo & R). unfold owns in H. assert (o = Some (Some a)) by congruence. subst o.
    destruct s; cbn in R; try contradiction. eapply nth_some_lt; eauto.
  - apply no_obj in E. unfold owns in H. congruence.
Qed.
Lemma ref_lt n r : nth_error (hrefs h) n = Some r -> fst r < length (hcells h).
Proof.
  intros H. destruct (proj1 (Forall2_nth _ _ _) (ok_refs h w OK)) as [L X].
  destruct (nth_error (owners w) n) as [q|] eqn:E.
  - destruct (X n r q H E) as [_ Y]. destruct (fst q) as [i|].
    + eapply cell_lt. exact Y.
    + eapply nth_some_lt. exact Y.
  - apply nth_error_None in E. apply nth_some_lt in H. lia.
Qed.

(** contents of one object replaced *)
Lemma save_ok i a b : owns h i a ->
  exists h', save h a b = Ok h' /\ ok h' (put w i (Full b)).
Proof.
  intros HO. pose proof (cell_lt i a HO) as La.
  destruct (nth_error (slots w) i) as [s|] eqn:E.
  2:{ apply no_obj in E. unfold owns in HO. congruence. }
  destruct (slot_obj i s E) as (o & Eo & R). unfold owns in HO. assert (o = Some (Some a)) by congruence. subst o.
  destruct s as [| |b0]; cbn in R; try contradiction.
  exists (set_cells h (upd (hcells h) a (Some b))). split.
  - unfold save, load, rd. rewrite R. cbn [bind]. rewrite wr_lt by auto. reflexivity.
  - destruct OK as [K1 K2 K3 K4 K5]. constructor; cbn [set_cells hcells hobjs hviews hrefs put slots views owners]; auto.
    + apply Forall2_nth. apply Forall2_nth in K1 as [L X]. rewrite upd_length. split; auto.
      intros j x y Hx Hy. rewrite upd_nth in Hy. destruct (Nat.eqb_spec j i) as [->|N].
      * destruct (i <? length (slots w)); [|discriminate]. injection Hy as <-. assert (x = Some (Some a)) by congruence. subst x.
        cbn. rewrite upd_nth, Nat.eqb_refl. destruct (Nat.ltb_spec a (length (hcells h))); [reflexivity|lia].
      * pose proof (X j x y Hx Hy) as Z. destruct x as [[c|]|], y; cbn in Z |- *; auto.
        rewrite upd_nth. destruct (Nat.eqb_spec c a) as [->|]; auto. exfalso. apply N. apply (K2 j i a); auto.
    + intros c b1 Hc. rewrite upd_nth in Hc. destruct (Nat.eqb_spec c a) as [->|].
      * exists i. exact HO.
      * destruct (K3 c b1 Hc) as (k & Hk). exists k. exact Hk.
    + eapply F2_impl; [|exact K5]. intros r q [Q1 Q2]. split; auto. destruct (fst q) as [k|]; auto.
      unfold set_cells; cbn [hcells]. rewrite upd_nth. destruct (Nat.eqb_spec (fst r) a) as [Er|]; auto. rewrite Er in Q2. congruence.
Qed.

(** a new object *)
Lemma construct_ok mem r : rel_res (construct h mem r) (create w mem r).
Proof.
  destruct r as [b| |]; cbn; auto. destruct mem; cbn; auto. split; auto.
  pose proof OK as [K1 K2 K3 K4 K5]. pose proof len_objs as LO.
  assert (HC : forall a x, cell h a = Some x -> nth_error (hcells h ++ [Some b]) a = Some x) by (intros a x Hx; rewrite nth_error_app1; auto; eapply nth_some_lt; eauto).
  constructor; cbn [alloc new_object set_objs set_cells hcells hobjs hviews hrefs slots views owners]; auto.
  - apply Forall2_app; [|constructor; [|constructor]].
    + eapply F2_impl; [|exact K1]. intros o s R. destruct o as [[a|]|], s; cbn in R |- *; auto.
    + cbn. rewrite app_nth, Nat.ltb_irrefl, Nat.eqb_refl. reflexivity.
  - intros i j a Hi Hj. unfold owns in Hi, Hj. cbn [alloc new_object set_objs set_cells hcells hobjs hviews hrefs] in Hi, Hj. rewrite app_nth in Hi, Hj.
    destruct (Nat.ltb_spec i (length (hobjs h))), (Nat.ltb_spec j (length (hobjs h))).
    + apply (K2 i j a); auto.
    + destruct (Nat.eqb_spec j (length (hobjs h))); [|discriminate]. injection Hj as <-. apply cell_lt in Hi. lia.
    + destruct (Nat.eqb_spec i (length (hobjs h))); [|discriminate]. injection Hi as <-. apply cell_lt in Hj. lia.
    + destruct (Nat.eqb_spec i (length (hobjs h))), (Nat.eqb_spec j (length (hobjs h))); try discriminate. congruence.
  - intros a b1 Ha. rewrite app_nth in Ha. destruct (Nat.ltb_spec a (length (hcells h))).
    + destruct (K3 a b1 Ha) as (i & Hi). exists i. unfold owns in *. cbn [alloc new_object set_objs set_cells hcells hobjs hviews hrefs]. rewrite nth_error_app1; auto. eapply nth_some_lt; eauto.
    + destruct (Nat.eqb_spec a (length (hcells h))); [|discriminate]. subst a. exists (length (hobjs h)). unfold owns. cbn [alloc new_object set_objs set_cells hcells hobjs hviews hrefs].
      rewrite app_nth, Nat.ltb_irrefl, Nat.eqb_refl. reflexivity.
  - eapply F2_impl; [|exact K5]. intros r q [Q1 Q2]. split; auto. destruct (fst q) as [k|]; cbn [alloc new_object set_objs set_cells hcells hobjs hviews hrefs]; auto.
    rewrite nth_error_app1; auto. eapply nth_some_lt; eauto.
Qed.

Ltac heapcbn := cbn [alloc new_object set_objs set_cells hcells hobjs hviews hrefs put rebind slots views owners fst snd] in *.

(** an object loses its contents: by destruction or before an assignment *)
Lemma drop_ok i q o s : obj h i = Some (Some q) -> (o = None /\ s = Gone \/ o = Some None /\ s = Hollow) ->
  exists h', free (set_objs h (upd (hobjs h) i o)) q = Ok h' /\ ok h' (rebind (put w i s) i None) /\
    hobjs h' = upd (hobjs h) i o /\ length (hcells h') = length (hcells h) /\
    hcells h' = match q with Some a => upd (hcells h) a None | None => hcells h end.
Proof.
  intros HQ HS. pose proof OK as [K1 K2 K3 K4 K5]. pose proof len_objs as LO.
  assert (NO : forall x, o <> Some (Some x)) by (destruct HS as [[-> _]|[-> _]]; congruence).
  assert (RS : forall h', rel_slot h' o s) by (intros h'; destruct HS as [[-> ->]|[-> ->]]; exact I).
  assert (Li : i < length (hobjs h)) by (eapply nth_some_lt; eauto).
  apply Forall2_nth in K1 as [L X]. apply Forall2_nth in K5 as [L5 X5].
  assert (OW : forall k a, nth_error (upd (hobjs h) i o) k = Some (Some (Some a)) -> k <> i /\ owns h k a).
  { intros k a. rewrite upd_nth. destruct (Nat.eqb_spec k i) as [->|N]; [|auto].
    destruct (Nat.ltb_spec i (length (hobjs h))); [|lia]. intros E. injection E as E. exfalso. eapply NO; eauto. }
  set (cs := match q with Some a => upd (hcells h) a None | None => hcells h end).
  assert (CS : forall k a, k <> i -> owns h k a -> nth_error cs a = cell h a).
  { intros k a N HK. unfold cs. destruct q as [a0|]; auto. rewrite upd_nth. destruct (Nat.eqb_spec a a0) as [->|]; auto.
    exfalso. apply N. apply (K2 k i a0); auto. }
  assert (CN : forall a, cell h a = Some None -> nth_error cs a = Some None).
  { intros a Ha. unfold cs. destruct q as [a0|]; auto. rewrite upd_nth. destruct (Nat.eqb_spec a a0) as [->|]; auto.
    destruct (Nat.ltb_spec a0 (length (hcells h))); auto. apply nth_some_lt in Ha. lia. }
  assert (LC : length cs = length (hcells h)) by (unfold cs; destruct q; [apply upd_length|reflexivity]).
  exists (Heap cs (upd (hobjs h) i o) (hviews h) (hrefs h)). repeat split; auto.
  - unfold free. destruct q as [a|]; [|reflexivity].
    pose proof (cell_lt i a HQ) as La.
    destruct (nth_error (slots w) i) as [s0|] eqn:E; [|apply no_obj in E; congruence].
    destruct (slot_obj i s0 E) as (o0 & Eo & R). assert (o0 = Some (Some a)) by congruence. subst o0.
    destruct s0; cbn in R; try contradiction. unfold load, rd. heapcbn. rewrite R. cbn [bind]. rewrite wr_lt by auto. reflexivity.
  - apply Forall2_nth. heapcbn. rewrite !upd_length. split; auto. intros k x y Hx Hy. rewrite upd_nth in Hy.
    destruct (Nat.eqb_spec k i) as [->|N].
    + rewrite upd_nth, Nat.eqb_refl in Hx. destruct (i <? length (hobjs h)); [|discriminate].
      destruct (i <? length (slots w)); [|discriminate]. injection Hx as <-. injection Hy as <-. apply RS.
    + pose proof Hx as Hx'. rewrite upd_nth in Hx. destruct (Nat.eqb_spec k i); [congruence|].
      pose proof (X k x y Hx Hy) as Z. destruct x as [[c|]|], y; cbn in Z |- *; auto. rewrite (CS k); auto.
  - intros k j a Hk Hj. unfold owns in Hk, Hj. heapcbn. apply OW in Hk as [_ Hk]. apply OW in Hj as [_ Hj]. eapply K2; eauto.
  - intros a b Ha. heapcbn. unfold cs in Ha. assert (Hc : cell h a = Some (Some b) /\ q <> Some a).
    { destruct q as [a0|]; [|split; [exact Ha|congruence]]. rewrite upd_nth in Ha. destruct (Nat.eqb_spec a a0) as [->|N].
      - destruct (a0 <? length (hcells h)); discriminate.
      - split; [exact Ha|congruence]. }
    destruct Hc as [Hc Nq]. destruct (K3 a b Hc) as (k & Hk). exists k. unfold owns in *. heapcbn. rewrite upd_nth.
    destruct (Nat.eqb_spec k i) as [->|]; auto. congruence.
  - apply Forall2_nth. heapcbn. rewrite map_length. split; auto. intros n r x Hr Hx. rewrite nth_error_map in Hx.
    destruct (nth_error (owners w) n) as [y|] eqn:Ey; [|discriminate]. cbn [option_map] in Hx. injection Hx as <-.
    destruct (X5 n r y Hr Ey) as [Q1 Q2]. destruct y as [[k|] c]; cbn [fst snd] in *.
    + destruct (Nat.eqb_spec k i) as [->|N].
      * split; auto. cbn [fst snd hcells]. rewrite HQ in Q2. injection Q2 as Q2. rewrite Q2 in HQ. unfold cs. rewrite Q2. rewrite upd_nth, Nat.eqb_refl.
        pose proof (cell_lt i (fst r) HQ). destruct (Nat.ltb_spec (fst r) (length (hcells h))); auto. lia.
      * split; auto. cbn [fst snd hobjs]. rewrite upd_nth. destruct (Nat.eqb_spec k i); [congruence|]. exact Q2.
    + split; auto. cbn [fst snd hcells]. auto.
Qed.

(** a hollow object receives fresh contents *)
Lemma fill_ok i b : obj h i = Some (Some None) ->
  ok (Heap (hcells h ++ [Some b]) (upd (hobjs h) i (Some (Some (length (hcells h))))) (hviews h) (hrefs h)) (put w i (Full b)).
Proof.
  intros HQ. pose proof OK as [K1 K2 K3 K4 K5]. pose proof len_objs as LO.
  assert (Li : i < length (hobjs h)) by (eapply nth_some_lt; eauto).
  apply Forall2_nth in K1 as [L X].
  assert (OW : forall k a, nth_error (upd (hobjs h) i (Some (Some (length (hcells h))))) k = Some (Some (Some a)) ->
    k = i /\ a = length (hcells h) \/ k <> i /\ owns h k a).
  { intros k a. rewrite upd_nth. destruct (Nat.eqb_spec k i) as [->|N]; [|auto].
    destruct (Nat.ltb_spec i (length (hobjs h))); [|lia]. intros E. left. split; congruence. }
  constructor; heapcbn; auto.
  - apply Forall2_nth. rewrite !upd_length. split; auto. intros k x y Hx Hy. rewrite upd_nth in Hx; rewrite upd_nth in Hy.
    destruct (Nat.eqb_spec k i) as [->|N].
    + destruct (i <? length (hobjs h)); [|discriminate].
      destruct (i <? length (slots w)); [|discriminate]. injection Hx as <-. injection Hy as <-. cbn.
      rewrite app_nth, Nat.ltb_irrefl, Nat.eqb_refl. reflexivity.
    + pose proof (X k x y Hx Hy) as Z. destruct x as [[c|]|], y; cbn in Z |- *; auto. rewrite nth_error_app1; auto. eapply nth_some_lt; eauto.
  - intros k j a Hk Hj. unfold owns in Hk, Hj. heapcbn. apply OW in Hk, Hj.
    destruct Hk as [[-> Ha]|[N1 Hk]], Hj as [[-> Hb]|[N2 Hj]]; auto.
    + apply cell_lt in Hj. lia.
    + apply cell_lt in Hk. lia.
    + eapply K2; eauto.
  - intros a b1 Ha. rewrite app_nth in Ha. unfold owns. heapcbn. destruct (Nat.ltb_spec a (length (hcells h))).
    + destruct (K3 a b1 Ha) as (k & Hk). exists k. unfold owns in Hk. rewrite upd_nth. destruct (Nat.eqb_spec k i) as [->|]; auto. congruence.
    + destruct (Nat.eqb_spec a (length (hcells h))); [|discriminate]. subst a. exists i. rewrite upd_nth, Nat.eqb_refl.
      destruct (Nat.ltb_spec i (length (hobjs h))); [auto|lia].
  - eapply F2_impl; [|exact K5]. intros r q [Q1 Q2]. split; auto. destruct (fst q) as [k|]; heapcbn.
    + rewrite upd_nth. destruct (Nat.eqb_spec k i) as [->|]; auto. congruence.
    + rewrite nth_error_app1; auto. eapply nth_some_lt; eauto.
Qed.

(** a hollow object takes over the contents of another one *)
Lemma transfer_ok i j q s : i <> j -> obj h i = Some (Some None) -> obj h j = Some (Some q) -> nth_error (slots w) j = Some s ->
  ok (Heap (hcells h) (upd (upd (hobjs h) j (Some None)) i (Some q)) (hviews h) (hrefs h)) (rebind (put (put w j Hollow) i s) j (Some i)).
Proof.
  intros NE HI HJ ES. pose proof OK as [K1 K2 K3 K4 K5]. pose proof len_objs as LO.
  assert (Li : i < length (hobjs h)) by (eapply nth_some_lt; eauto).
  assert (Lj : j < length (hobjs h)) by (eapply nth_some_lt; eauto).
  apply Forall2_nth in K1 as [L X].
  assert (UO : forall k, nth_error (upd (upd (hobjs h) j (Some None)) i (Some q)) k =
    if k =? i then Some (Some q) else if k =? j then Some (Some None) else obj h k).
  { intros k. rewrite !upd_nth, upd_length. destruct (Nat.ltb_spec i (length (hobjs h))), (Nat.ltb_spec j (length (hobjs h))); auto; lia. }
  assert (OW : forall k a, nth_error (upd (upd (hobjs h) j (Some None)) i (Some q)) k = Some (Some (Some a)) ->
    k = i /\ owns h j a \/ k <> i /\ k <> j /\ owns h k a).
  { intros k a. rewrite UO. destruct (Nat.eqb_spec k i) as [->|N]; [|destruct (Nat.eqb_spec k j) as [->|N2]; [discriminate|auto]].
    intros E. left. split; auto. unfold owns. congruence. }
  constructor; heapcbn; auto.
  - apply Forall2_nth. rewrite !upd_length. split; auto. intros k x y Hx Hy. rewrite UO in Hx. rewrite !upd_nth, upd_length in Hy.
    destruct (Nat.eqb_spec k i) as [->|N].
    + destruct (i <? length (slots w)); [|discriminate]. injection Hx as <-. injection Hy as <-. exact (X j _ _ HJ ES).
    + destruct (Nat.eqb_spec k j) as [->|N2].
      * destruct (j <? length (slots w)); [|discriminate]. injection Hx as <-. injection Hy as <-. exact I.
      * exact (X k x y Hx Hy).
  - intros k l a Hk Hl. unfold owns in Hk, Hl. heapcbn. apply OW in Hk, Hl.
    destruct Hk as [[-> Ha]|(N1 & N1' & Hk)], Hl as [[-> Hb]|(N2 & N2' & Hl)]; auto.
    + exfalso. apply N2'. eapply K2; eauto.
    + exfalso. apply N1'. eapply K2; eauto.
    + eapply K2; eauto.
  - intros a b1 Ha. destruct (K3 a b1 Ha) as (k & Hk). unfold owns in *. heapcbn.
    destruct (Nat.eqb_spec k j) as [->|N].
    + exists i. rewrite UO, Nat.eqb_refl. congruence.
    + exists k. rewrite UO. destruct (Nat.eqb_spec k i) as [->|]; [congruence|]. destruct (Nat.eqb_spec k j); [congruence|]. exact Hk.
  - apply Forall2_nth. apply Forall2_nth in K5 as [L5 X5]. rewrite map_length. split; auto. intros n r x Hr Hx. rewrite nth_error_map in Hx.
    destruct (nth_error (owners w) n) as [y|] eqn:Ey; [|discriminate]. cbn [option_map] in Hx. injection Hx as <-.
    destruct (X5 n r y Hr Ey) as [Q1 Q2]. destruct y as [[k|] c]; cbn [fst snd] in *.
    + destruct (Nat.eqb_spec k j) as [->|N]; (split; [auto|]); cbn [fst snd hobjs].
      * rewrite UO, Nat.eqb_refl. congruence.
      * rewrite UO. destruct (Nat.eqb_spec k i) as [->|]; [congruence|]. destruct (Nat.eqb_spec k j); [congruence|]. exact Q2.
    + split; auto.
Qed.
(** an empty object more *)
Lemma hollow_ok : ok (Heap (hcells h) (hobjs h ++ [Some None]) (hviews h) (hrefs h)) (World (slots w ++ [Hollow]) (views w) (owners w)).
Proof.
  pose proof OK as [K1 K2 K3 K4 K5].
  assert (OW : forall k a, nth_error (hobjs h ++ [Some None]) k = Some (Some (Some a)) -> owns h k a).
  { intros k a. rewrite app_nth. destruct (Nat.ltb_spec k (length (hobjs h))); auto. destruct (k =? length (hobjs h)); discriminate. }
  assert (UO : forall k x, obj h k = Some x -> nth_error (hobjs h ++ [Some None]) k = Some x) by (intros k x Hx; rewrite nth_error_app1; auto; eapply nth_some_lt; eauto).
  constructor; heapcbn; auto.
  - apply Forall2_app; [|repeat constructor]. eapply F2_impl; [|exact K1]. intros o s R. exact R.
  - intros i j a Hi Hj. apply OW in Hi, Hj. eapply K2; eauto.
  - intros a b Ha. destruct (K3 a b Ha) as (k & Hk). exists k. apply UO. exact Hk.
  - eapply F2_impl; [|exact K5]. intros r q [Q1 Q2]. split; auto. destruct (fst q) as [k|]; heapcbn; auto.
Qed.
End Step.

Lemma bind_cong {X Y} (r : res X) (f g : X -> res Y) : (forall x, f x = g x) -> bind r f = bind r g.
Proof. intros H. destruct r; cbn; auto. Qed.

Lemma step_ok h w o : ok h w -> rel_res (step h o) (sstep w o).
Proof.
  intros K. destruct o as [mem p|mem p d|mem i|i|mem i j|i j|i|i data den|i|i v|n data den|mem n|i ch|n sub]; cbn [step sstep].
  - apply construct_ok; auto.
  - apply construct_ok; auto.
  - rewrite (deref_content h w K i). destruct (content w i); cbn [bind]; try exact I. apply construct_ok; auto.
  - (* move *)
    unfold release. pose proof (impl_alive h w K i) as HI. unfold alive in HI. unfold rd at 1.
    destruct (nth_error (slots w) i) as [s|] eqn:E.
    2:{ unfold rd in HI. rewrite E in HI. cbn [bind] in HI. rewrite HI. exact I. }
    unfold rd in HI. rewrite E in HI. cbn [bind] in HI |- *.
    assert (Li : i < length (slots w)) by (eapply nth_some_lt; eauto).
    pose proof (len_objs h w K) as LO.
    destruct s as [| |b].
    1:{ rewrite HI. exact I. }
    all: destruct HI as (q & -> & HQ); cbn [bind]; rewrite wr_lt by lia; cbn [bind fst snd rel_res]; split; auto;
      pose proof (hollow_ok h w K) as H1;
      assert (N : length (hobjs h) <> i) by lia;
      assert (G1 : nth_error (hobjs h ++ [Some None]) (length (hobjs h)) = Some (Some None)) by (rewrite app_nth, Nat.ltb_irrefl, Nat.eqb_refl; auto);
      assert (G2 : nth_error (hobjs h ++ [Some None]) i = Some (Some q)) by (rewrite nth_error_app1 by lia; auto).
    1: pose proof (transfer_ok _ _ H1 (length (hobjs h)) i q Hollow N G1 G2 ltac:(cbn [slots]; rewrite nth_error_app1 by lia; auto)) as H2.
    2: pose proof (transfer_ok _ _ H1 (length (hobjs h)) i q (Full b) N G1 G2 ltac:(cbn [slots]; rewrite nth_error_app1 by lia; auto)) as H2.
    all: unfold new_object, set_objs; unfold put, rebind in *; cbn [hcells hobjs hviews hrefs slots views owners] in *;
      rewrite (upd_app (hobjs h)) in H2 by lia; rewrite (upd_app (slots w)) in H2 by lia.
    all: assert (G : forall X (l : list X) n a b, n = length l -> upd (l ++ [a]) n b = l ++ [b])
      by (intros X l n a0 b0 ->; apply nth_ext_eq; intros k; rewrite upd_nth, !app_nth, app_length; cbn [length];
          destruct (Nat.eqb_spec k (length l)) as [->|];
          [rewrite Nat.ltb_irrefl; destruct (Nat.ltb_spec (length l) (length l + 1)); [reflexivity|lia]|destruct (Nat.ltb_spec k (length l)); reflexivity]).
    all: rewrite (G _ (upd (hobjs h) i (Some None))) in H2 by (rewrite upd_length; lia); rewrite (G _ (upd (slots w) i Hollow)) in H2 by (rewrite upd_length; lia); rewrite LO in H2; exact H2.
  - (* copy assignment *)
    pose proof (impl_alive h w K i) as HI. destruct (alive w i) as [u| |] eqn:EA; [|contradiction|rewrite HI; exact I].
    destruct HI as (q & EI & HQ). rewrite EI. cbn [bind]. rewrite (deref_content h w K j).
    destruct (content w j) as [b| |]; cbn [bind]; try exact I. destruct mem; [|cbn; auto].
    cbn [alloc]. unfold reset, impl_of. cbn [set_cells hobjs].
    unfold rd at 1. rewrite HQ. cbn [bind]. rewrite wr_lt by (eapply nth_some_lt; eauto). cbn [bind].
    destruct (drop_ok h w K i q (Some None) Hollow HQ (or_intror (conj eq_refl eq_refl))) as (h1 & F1 & K1 & E1 & L1 & C1).
    assert (H1 : obj h1 i = Some (Some None)).
    { rewrite E1, upd_nth, Nat.eqb_refl. destruct (Nat.ltb_spec i (length (hobjs h))); auto. apply nth_some_lt in HQ. lia. }
    pose proof (fill_ok h1 _ K1 i b H1) as K2. rewrite E1, upd_upd, L1, C1 in K2.
    assert (V1 : hviews h1 = hviews h) by (rewrite (ok_views _ _ K1); cbn; symmetry; apply K).
    assert (R1 : hrefs h1 = hrefs h).
    { unfold free in F1. destruct q as [a|]; [|injection F1 as <-; reflexivity].
      destruct (load _ a); cbn [bind] in F1; try discriminate. unfold wr in F1. destruct (_ <? _); cbn [bind] in F1; [|discriminate]. injection F1 as <-. reflexivity. }
    rewrite V1, R1 in K2.
    assert (EW : put (rebind (put w i Hollow) i None) i (Full b) = rebind (put w i (Full b)) i None) by (unfold put, rebind; cbn [slots views owners]; rewrite upd_upd; reflexivity).
    rewrite EW in K2.
    unfold free. destruct q as [a|].
    + pose proof (cell_lt h w K i a HQ) as La.
      assert (HC : exists b0, cell h a = Some (Some b0)).
      { unfold free, load, rd in F1. cbn [set_objs hcells] in F1. destruct (cell h a) as [[b0|]|]; cbn [bind] in F1; try discriminate. eauto. }
      destruct HC as (b0 & HC). unfold load, rd. cbn [set_objs set_cells hcells]. rewrite nth_error_app1 by auto. rewrite HC. cbn [bind].
      rewrite wr_lt by (rewrite app_length; lia). cbn [bind rel_res]. split; auto. cbn [set_cells set_objs hcells hobjs hviews hrefs]. rewrite upd_app by auto. exact K2.
    + cbn [bind rel_res]. split; auto.
  - (* move assignment *)
    pose proof (impl_alive h w K i) as HI. destruct (alive w i) as [u| |] eqn:EA; [|contradiction|rewrite HI; exact I].
    destruct HI as (qi & EI & HQi). rewrite EI. cbn [bind].
    unfold release. pose proof (impl_alive h w K j) as HJ. unfold alive in HJ. unfold rd in HJ. unfold rd at 1.
    destruct (nth_error (slots w) j) as [s|] eqn:E; [|cbn [bind] in HJ; rewrite HJ; exact I]. cbn [bind] in HJ |- *.
    assert (HJ' : match s with Gone => impl_of h j = UB | _ => exists q, impl_of h j = Ok q /\ obj h j = Some (Some q) end) by (destruct s; auto). clear HJ.
    assert (NG : s = Gone \/ s <> Gone) by (destruct s; [left; auto|right; discriminate|right; discriminate]).
    destruct NG as [->|NG]; [rewrite HJ'; exact I|].
    assert (HJ : exists q, impl_of h j = Ok q /\ obj h j = Some (Some q)) by (destruct s; [congruence|auto|auto]). clear HJ'.
    destruct HJ as (q & -> & HQ). cbn [bind]. pose proof (nth_some_lt _ _ _ HQ) as Lj. pose proof (nth_some_lt _ _ _ HQi) as Li.
    rewrite wr_lt by auto. cbn [bind fst snd].
    assert (ES : match s with Gone => UB | _ => if i =? j then Ok (w, Did true) else Ok (rebind (rebind (put (put w j Hollow) i s) i None) j (Some i), @Did T true) end
      = if i =? j then Ok (w, Did true) else Ok (rebind (rebind (put (put w j Hollow) i s) i None) j (Some i), Did true)) by (destruct s; [congruence|auto|auto]).
    rewrite ES. clear ES. unfold reset, impl_of. cbn [set_objs hobjs]. unfold rd at 1. rewrite upd_nth.
    destruct (Nat.eqb_spec i j) as [->|N].
    + destruct (Nat.ltb_spec j (length (hobjs h))); [|lia]. cbn [bind]. rewrite wr_lt by (rewrite upd_length; auto). cbn [bind free rel_res]. split; auto.
      unfold set_objs. cbn [hcells hobjs hviews hrefs]. rewrite upd_upd, upd_same by auto. destruct h; exact K.
    + rewrite HQi. cbn [bind]. rewrite wr_lt by (rewrite upd_length; auto). cbn [bind].
      destruct (drop_ok h w K i qi (Some None) Hollow HQi (or_intror (conj eq_refl eq_refl))) as (h1 & F1 & K1 & E1 & L1 & C1).
      assert (H1 : obj h1 i = Some (Some None)).
      { rewrite E1, upd_nth, Nat.eqb_refl. destruct (Nat.ltb_spec i (length (hobjs h))); auto. lia. }
      assert (H2 : obj h1 j = Some (Some q)).
      { rewrite E1, upd_nth. destruct (Nat.eqb_spec j i); [congruence|auto]. }
      assert (H3 : nth_error (slots (rebind (put w i Hollow) i None)) j = Some s).
      { cbn [rebind put slots]. rewrite upd_nth. destruct (Nat.eqb_spec j i); [congruence|auto]. }
      pose proof (transfer_ok h1 _ K1 i j q s N H1 H2 H3) as K2.
      assert (V1 : hviews h1 = hviews h) by (rewrite (ok_views _ _ K1); cbn; symmetry; apply K).
      assert (R1 : hrefs h1 = hrefs h).
      { unfold free in F1. destruct qi as [a|]; [|injection F1 as <-; reflexivity].
        destruct (load _ a); cbn [bind] in F1; try discriminate. unfold wr in F1. destruct (_ <? _); cbn [bind] in F1; [|discriminate]. injection F1 as <-. reflexivity. }
      rewrite V1, R1, E1, C1 in K2.
      assert (EO : upd (upd (upd (hobjs h) i (Some None)) j (Some None)) i (Some q) = upd (upd (hobjs h) j (Some None)) i (Some q)).
      { rewrite (upd_comm _ i j) by auto. rewrite upd_upd. reflexivity. }
      assert (EW : rebind (put (put (rebind (put w i Hollow) i None) j Hollow) i s) j (Some i) = rebind (rebind (put (put w j Hollow) i s) i None) j (Some i)).
      { unfold put, rebind; cbn [slots views owners]. rewrite (upd_comm _ i j) by auto. rewrite upd_upd. reflexivity. }
      rewrite EO, EW in K2.
      unfold free in F1 |- *. destruct qi as [a|].
      * pose proof (cell_lt h w K i a HQi) as La.
        unfold load, rd in F1 |- *. cbn [set_objs hcells] in F1 |- *. destruct (cell h a) as [[b0|]|]; cbn [bind] in F1 |- *; try discriminate.
        rewrite wr_lt by auto. cbn [bind rel_res]. split; auto.
      * cbn [bind rel_res]. split; auto.
  - (* destruction *)
    pose proof (impl_alive h w K i) as HI. destruct (alive w i) as [u| |] eqn:EA; [|contradiction|rewrite HI; exact I].
    destruct HI as (q & EI & HQ). rewrite EI. cbn [bind]. rewrite wr_lt by (eapply nth_some_lt; eauto). cbn [bind].
    destruct (drop_ok h w K i q None Gone HQ (or_introl (conj eq_refl eq_refl))) as (h1 & F1 & K1 & _).
    rewrite F1. cbn [bind rel_res]. auto.
  - pose proof (cell_content h w K i) as HC. destruct (content w i) as [b| |]; [|contradiction|destruct HC as [_ ->]; exact I].
    destruct HC as (a & -> & HL & HO & _). cbn [bind]. rewrite HL. cbn [bind]. destruct (decompose b data den) as [r| |]; cbn [bind]; try exact I.
    destruct (save_ok h w K i a (snd r) HO) as (h' & -> & K'). cbn [bind rel_res]. auto.
  - rewrite (deref_content h w K i). destruct (content w i); cbn [bind rel_res]; auto.
  - pose proof (impl_alive h w K i) as HI. destruct (alive w i) as [u| |] eqn:EA; [|contradiction|rewrite HI; exact I].
    destruct HI as (q & EI & HQ). rewrite EI. cbn [bind rel_res]. split; auto. destruct K as [K1 K2 K3 K4 K5].
    constructor; cbn [hcells hobjs hviews hrefs slots views owners]; auto. congruence.
  - unfold rd. rewrite (ok_views _ _ K). destruct (nth_error (views w) n) as [[i v]|]; cbn [bind fst snd]; [|exact I].
    pose proof (cell_content h w K i) as HC. destruct (content w i) as [b| |]; [|contradiction|destruct HC as [_ ->]; exact I].
    destruct HC as (a & -> & HL & HO & _). cbn [bind]. rewrite HL. cbn [bind]. destruct (view_decompose v b data den) as [r| |]; cbn [bind]; try exact I.
    destruct (save_ok h w K i a (snd r) HO) as (h' & -> & K'). cbn [bind rel_res]. auto.
  - unfold rd. rewrite (ok_views _ _ K). destruct (nth_error (views w) n) as [[i v]|]; cbn [bind fst snd]; [|exact I].
    rewrite (deref_content h w K i). destruct (content w i) as [b| |]; cbn [bind]; try exact I. apply construct_ok; auto.
  - pose proof (cell_content h w K i) as HC. destruct (content w i) as [b| |]; [|contradiction|destruct HC as [_ ->]; exact I].
    destruct HC as (a & -> & HL & HO & _). cbn [bind]. rewrite HL. cbn [bind]. destruct (rd (bdec b) ch) as [x| |]; cbn [bind rel_res]; try exact I. split; auto.
    destruct K as [K1 K2 K3 K4 K5]. constructor; cbn [hcells hobjs hviews hrefs slots views owners]; auto.
    apply Forall2_app; [eapply F2_impl; [|exact K5]; intros r q [Q1 Q2]; split; auto|]. constructor; [|constructor]. split; auto.
  - (* writing through a reference *)
    pose proof (ok_refs _ _ K) as KR. apply Forall2_nth in KR as [LR XR]. change (rd (hrefs h) n) with (match nth_error (hrefs h) n with Some v => Ok v | None => UB end); change (rd (owners w) n) with (match nth_error (owners w) n with Some v => Ok v | None => UB end).
    destruct (nth_error (hrefs h) n) as [[a ch]|] eqn:EH.
    2:{ apply nth_error_None in EH. assert (EN : nth_error (owners w) n = None) by (apply nth_error_None; lia). rewrite EN. exact I. }
    destruct (nth_error (owners w) n) as [[o ch']|] eqn:EO.
    2:{ apply nth_error_None in EO. apply nth_some_lt in EH. lia. }
    destruct (XR n _ _ EH EO) as [Q1 Q2]. cbn [fst snd bind] in *. subst ch'. destruct o as [i|].
    2:{ unfold load, rd. rewrite Q2. exact I. }
    pose proof (cell_content h w K i) as HC. unfold owns in HC.
    destruct (content w i) as [b| |] eqn:EC; [|contradiction|].
    + destruct HC as (a' & _ & HL & HO & _). assert (a' = a) by congruence. subst a'. rewrite HL. cbn [bind].
      destruct (wr (bdec b) ch sub) as [d| |]; cbn [bind]; try exact I.
      destruct (save_ok h w K i a (Buffer (bpar b) d) HO) as (h' & -> & K'). cbn [bind rel_res]. auto.
    + destruct HC as [_ HC]. unfold cell_of, impl_of, rd in HC. rewrite Q2 in HC. discriminate.
Qed.

Lemma empty_ok : ok (@empty_heap T) empty_world.
Proof. constructor; cbn; try constructor; auto; intros; match goal with a : nat |- _ => destruct a end; cbv in *; try discriminate; destruct i; discriminate. Qed.

Lemma run_ok l h w : ok h w ->
  match run h l, srun w l with
  | Ok (h', os), Ok (w', os') => os = os' /\ ok h' w'
  | Throw, Throw => True
  | UB, UB => True
  | _, _ => False
  end.
Proof.
  revert h w. induction l as [|o l IH]; intros h w K; cbn [run srun]; auto.
  pose proof (step_ok h w o K) as S1. unfold rel_res in S1.
  destruct (step h o) as [[h1 o1]| |], (sstep w o) as [[w1 o1']| |]; cbn [bind fst snd]; try contradiction; auto.
  destruct S1 as [-> K1]. pose proof (IH h1 w1 K1) as IH1.
  destruct (run h1 l) as [[h2 os]| |], (srun w1 l) as [[w2 os']| |]; cbn [bind fst snd]; try contradiction; auto.
  destruct IH1 as [-> K2]. auto.
Qed.
Lemma ok_holds h w i : ok h w -> holds h i = nth_error (slots w) i.
Proof.
  intros K. unfold holds. destruct (nth_error (slots w) i) as [s|] eqn:E.
  - destruct (slot_obj h w K i s E) as (o & -> & R). destruct o as [[a|]|], s; cbn in R; try contradiction; auto. rewrite R. reflexivity.
  - rewrite (no_obj h w K i E). reflexivity.
Qed.
End Object.
