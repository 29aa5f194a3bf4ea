(** * P_Python3: the constructor with subbands, decomposition_size *)
Require Import List Bool Arith ZArith Lia ZifyBool.
Require Import Verif.M_Base Verif.P_Base Verif.M_Params Verif.M_Buffer Verif.M_View Verif.S_Params Verif.S_Buffer.
Require Import Verif.P_Api Verif.P_Api2 Verif.P_Params Verif.M_Python Verif.S_Python Verif.P_Python.
Import ListNotations.
Open Scope Z_scope.

Lemma throws {X Y} (f : X -> res Y) l x : In x l -> f x = Throw -> (forall y, In y l -> f y <> UB) -> mapM f l = Throw.
Proof.
  intros Hin Hx Hn. induction l as [|y l IH]; [contradiction|]. cbn [mapM].
  destruct (f y) eqn:E; cbn [bind]; auto.
  - destruct Hin as [->|Hin]; [congruence|]. rewrite IH; auto. intros; apply Hn; right; auto.
  - exfalso. apply (Hn y); [left; auto|auto].
Qed.
Lemma no_ub {X Y} (f : X -> res Y) l : (forall y, In y l -> f y <> UB) -> mapM f l <> UB.
Proof.
  induction l as [|y l IH]; intros H; cbn [mapM]; [discriminate|].
  pose proof (H y (or_introl eq_refl)) as Hy. destruct (f y); cbn [bind]; try discriminate; try contradiction.
  assert (I : mapM f l <> UB) by (apply IH; intros; apply H; right; auto). destruct (mapM f l); cbn [bind]; try discriminate. contradiction.
Qed.

Section P.
Context {T : Type}.
Variable load : list Z -> T.

Definition readable (a : ndarray) : Prop := exists h w, nd_shape a = [h; w] /\
  0 <= nd_off a /\ nd_off a + 4 * Z.of_nat (h * w) <= Z.of_nat (length (nd_mem a)).

Lemma readable_writable a : readable a -> nd_writable a = true -> exists m, array_to_mat load a = Ok m.
Proof.
  intros (h & w & E & H0 & H1) W. unfold array_to_mat. rewrite E. cbn [rd nth_error bind]. rewrite W. cbn [check bind].
  eexists. rewrite mbuildM_ok with (g := fun i j => float_at load a (w * i + j)); [reflexivity|].
  intros i j Hi Hj. apply raw_ok; auto. assert ((w * i + j < h * w)%nat) by nia. lia.
Qed.
Lemma readable_only a : readable a -> nd_writable a = false -> array_to_mat load a = Throw.
Proof. intros (h & w & E & _) W. unfold array_to_mat. rewrite E. cbn [rd nth_error bind]. rewrite W. reflexivity. Qed.

Lemma construct_read_only p (decs : list (list ndarray)) :
  (forall ch a, In ch decs -> In a ch -> readable a) ->
  (exists ch a, In ch decs /\ In a ch /\ nd_writable a = false) ->
  py_construct load p decs = Throw.
Proof.
  intros HR (ch & a & Hc & Ha & W). unfold py_construct.
  assert (N : forall c x, In c decs -> In x c -> array_to_mat load x <> UB).
  { intros c x Hc' Hx. pose proof (HR c x Hc' Hx) as R. destruct (nd_writable x) eqn:E.
    - destruct (readable_writable x R E) as (m & ->). discriminate.
    - rewrite readable_only by auto. discriminate. }
  assert (E : py_to_decompositions load decs = Throw).
  { apply (throws _ decs ch Hc).
    - apply (throws _ ch a Ha); [apply readable_only; eauto|]. intros; eapply N; eauto.
    - intros c Hc'. apply no_ub. intros; eapply N; eauto. }
  destruct decs; [contradiction|]. rewrite E. reflexivity.
Qed.

Lemma py_size p : py_decomposition_size (shape p) (steps p) = decomposition_size p.
Proof. reflexivity. Qed.

Lemma size_counts {A : Arith T} p (b : buffer T) : accepted p -> reachable p b ->
  Forall (fun ch => length ch = py_decomposition_size (shape p) (steps p)) (bdec b) /\
  forall arrays, decompositions_to_py (bdec b) = Ok arrays ->
    Forall (fun ch => length ch = py_decomposition_size (shape p) (steps p)) arrays.
Proof.
  intros HA HR. destruct (reachable_weak p b HA HR) as (_ & _ & H). rewrite py_size.
  split; [apply Forall_forall; exact H|]. intros arrays E. unfold decompositions_to_py in E.
  revert arrays E. induction (bdec b) as [|ch l IH]; intros arrays E; cbn [mapM] in E.
  - injection E as <-. constructor.
  - apply bind_ok in E as (x & E1 & E). apply bind_ok in E as (r & E2 & E). injection E as <-.
    constructor; [|apply IH; auto; intros; apply H; right; auto].
    apply mapM_length in E1. rewrite E1. apply H. left. reflexivity.
Qed.

Lemma size_required p decs (b : buffer T) : accepted p -> decs <> [] -> py_construct load p decs = Ok b ->
  Z.of_nat (length decs) = signum p /\ Forall (fun ch => length ch = py_decomposition_size (shape p) (steps p)) decs.
Proof.
  intros HA HN H. unfold py_construct in H. destruct decs as [|d0 ds]; [contradiction|].
  set (decs := d0 :: ds) in *. clearbody decs. clear d0 ds HN. rewrite py_size.
  apply bind_ok in H as (d & E & H). unfold new_buffer_with in H. apply bind_ok in H as (b0 & E0 & H).
  destruct (weak_new p b0 HA E0) as (P0 & L0 & C0). rewrite P0 in H.
  destruct (Z.eqb_spec (signum p) (Z.of_nat (length d))) as [El|]; cbn [negb] in H; [|discriminate].
  destruct (forallb _ _) eqn:F; cbn [negb] in H; [|discriminate]. clear H.
  unfold py_to_decompositions in E. pose proof (mapM_length _ _ _ E) as LE. split; [lia|].
  assert (LL : length (bdec b0) = length d) by lia. clear El L0 E0 P0.
  revert d E F LE LL. generalize (bdec b0) C0. clear C0 b0. intros l C0. revert decs.
  induction l as [|c l IH]; intros decs d E F LE LL.
  - destruct d; [|discriminate]. destruct decs; [constructor|discriminate].
  - destruct d as [|x d]; [discriminate|]. destruct decs as [|a decs]; [discriminate|].
    cbn [mapM] in E. apply bind_ok in E as (y & E1 & E). apply bind_ok in E as (r & E2 & E). injection E as <- <-.
    cbn [combine forallb fst snd] in F. apply andb_prop in F as [F1 F2]. apply Nat.eqb_eq in F1.
    cbn [length] in *. constructor.
    + apply mapM_length in E1. rewrite <- E1, <- F1. apply C0. left. reflexivity.
    + eapply IH; eauto. intros ch Hc. apply C0. right. exact Hc.
Qed.
End P.
