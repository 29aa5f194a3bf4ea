(** * P_Base: lemmas about the carriers of M_Base. *)
Require Import List Bool Arith ZArith QArith Lia.
Require Import Verif.M_Base.
Import ListNotations.
Open Scope nat_scope.
Global Arguments Nat.div : simpl never.
Global Arguments Nat.modulo : simpl never.

Lemma bind_ok {A B} (m : res A) (f : A -> res B) b :
  bind m f = Ok b -> exists a, m = Ok a /\ f a = Ok b.
Proof. destruct m; simpl; intros; try discriminate; eauto. Qed.

Lemma guard_ok b u : guard b = Ok u -> b = true.
Proof. unfold guard; destruct b; congruence. Qed.
Lemma check_ok b u : check b = Ok u -> b = true.
Proof. unfold check; destruct b; congruence. Qed.
Lemma guard_true b : b = true -> guard b = Ok tt.
Proof. intros ->; reflexivity. Qed.
Lemma check_true b : b = true -> check b = Ok tt.
Proof. intros ->; reflexivity. Qed.

(** ** rd, wr *)
Lemma rd_nth {A} (l : list A) i d : i < length l -> rd l i = Ok (nth i l d).
Proof.
  intros. unfold rd. rewrite (nth_error_nth' l d H). reflexivity.
Qed.
Lemma rd_ok {A} (l : list A) i a : rd l i = Ok a -> nth_error l i = Some a.
Proof. unfold rd; destruct nth_error; congruence. Qed.
Lemma rd_ok_lt {A} (l : list A) i a : rd l i = Ok a -> i < length l.
Proof. intros H%rd_ok. apply nth_error_Some. congruence. Qed.
Lemma rd_some {A} (l : list A) i a : nth_error l i = Some a -> rd l i = Ok a.
Proof. unfold rd; intros ->; reflexivity. Qed.
Lemma rd_not_throw {A} (l : list A) i : rd l i <> Throw.
Proof. unfold rd; destruct nth_error; congruence. Qed.

Lemma upd_length {A} (l : list A) i a : length (upd l i a) = length l.
Proof. revert i; induction l; intros [|i]; simpl; auto. Qed.
Lemma upd_nth_eq {A} (l : list A) i a : i < length l -> nth_error (upd l i a) i = Some a.
Proof. revert i; induction l; intros [|i] H; simpl in *; try lia; auto. apply IHl; lia. Qed.
Lemma upd_nth_neq {A} (l : list A) i j a : i <> j -> nth_error (upd l i a) j = nth_error l j.
Proof. revert i j; induction l; intros [|i] [|j] H; simpl in *; try lia; auto. Qed.
Lemma wr_ok {A} (l : list A) i a l' : wr l i a = Ok l' -> i < length l /\ l' = upd l i a.
Proof.
  unfold wr. destruct (Nat.ltb_spec i (length l)); intros E; inversion E; auto.
Qed.
Lemma wr_lt {A} (l : list A) i a : i < length l -> wr l i a = Ok (upd l i a).
Proof. intros; unfold wr; destruct (Nat.ltb_spec i (length l)); [reflexivity|lia]. Qed.

Lemma upd_app {A} (l1 : list A) x l2 a :
  upd (l1 ++ x :: l2) (length l1) a = l1 ++ a :: l2.
Proof. induction l1; simpl; congruence. Qed.

(** ** mapM, tabulateM *)
Lemma mapM_ok {A B} (f : A -> res B) (g : A -> B) l :
  (forall a, In a l -> f a = Ok (g a)) -> mapM f l = Ok (map g l).
Proof.
  induction l; simpl; intros H; [reflexivity|].
  rewrite H by auto. simpl. rewrite IHl by auto. reflexivity.
Qed.

Lemma mapM_inv {A B} (f : A -> res B) l l' :
  mapM f l = Ok l' -> Forall2 (fun a b => f a = Ok b) l l'.
Proof.
  revert l'; induction l; simpl; intros l' H.
  - inversion H; constructor.
  - apply bind_ok in H as (b & Hb & H). apply bind_ok in H as (t & Ht & H).
    inversion H; subst. constructor; auto.
Qed.

Lemma mapM_length {A B} (f : A -> res B) l l' : mapM f l = Ok l' -> length l' = length l.
Proof. intros H%mapM_inv. induction H; simpl; auto. Qed.

Lemma mapM_ext {A B} (f g : A -> res B) l :
  (forall a, In a l -> f a = g a) -> mapM f l = mapM g l.
Proof.
  induction l; simpl; intros H; [reflexivity|].
  rewrite H by auto. destruct (g a); simpl; auto. rewrite IHl by auto. reflexivity.
Qed.

Lemma tabulateM_ok {B} n (f : nat -> res B) (g : nat -> B) :
  (forall i, i < n -> f i = Ok (g i)) -> tabulateM n f = Ok (map g (seq 0 n)).
Proof.
  intros. unfold tabulateM. apply mapM_ok. intros i Hi. apply in_seq in Hi. apply H; lia.
Qed.

Lemma Forall2_nth_error {A B} (R : A -> B -> Prop) l l' :
  Forall2 R l l' -> forall i a b, nth_error l i = Some a -> nth_error l' i = Some b -> R a b.
Proof.
  induction 1; intros [|i] a b; simpl; try discriminate.
  - congruence.
  - apply IHForall2.
Qed.

Lemma nth_error_seq n s i : i < n -> nth_error (seq s n) i = Some (s + i).
Proof.
  revert s i; induction n; intros s [|i] H; simpl; try lia.
  - f_equal; lia.
  - rewrite IHn by lia. f_equal; lia.
Qed.

Lemma tabulateM_inv {B} n (f : nat -> res B) l :
  tabulateM n f = Ok l ->
  length l = n /\ forall i b, nth_error l i = Some b -> f i = Ok b.
Proof.
  intros H. pose proof (mapM_length _ _ _ H) as HL. rewrite seq_length in HL. split; auto.
  intros i b Hb. apply mapM_inv in H.
  assert (i < n) by (rewrite <- HL; apply nth_error_Some; congruence).
  eapply Forall2_nth_error with (1:=H); eauto. rewrite nth_error_seq by lia. reflexivity.
Qed.

Lemma tabulateM_ext {B} n (f g : nat -> res B) :
  (forall i, i < n -> f i = g i) -> tabulateM n f = tabulateM n g.
Proof.
  intros. unfold tabulateM. apply mapM_ext. intros i Hi. apply in_seq in Hi. apply H; lia.
Qed.

Lemma map_seq_nth {A} (l : list A) d : map (fun i => nth i l d) (seq 0 (length l)) = l.
Proof.
  induction l; simpl; [reflexivity|]. f_equal.
  rewrite <- seq_shift, map_map. apply IHl.
Qed.

Lemma nth_map_seq {A} (g : nat -> A) n i d : i < n -> nth i (map g (seq 0 n)) d = g i.
Proof.
  intros. rewrite nth_indep with (d' := g 0) by (rewrite map_length, seq_length; lia).
  rewrite map_nth, seq_nth by lia. f_equal.
Qed.

Lemma nth_error_map_seq {A} (g : nat -> A) n i : i < n -> nth_error (map g (seq 0 n)) i = Some (g i).
Proof. intros. rewrite nth_error_map, nth_error_seq by lia. reflexivity. Qed.

(** ** loop *)
(** relational invariant: each iteration succeeds *)
Lemma loop_inv {S} n start (body : nat -> S -> res S) (I : nat -> S -> Prop) s :
  I 0 s ->
  (forall i s, i < n -> I i s -> exists s', body (start + i) s = Ok s' /\ I (Datatypes.S i) s') ->
  exists s', loop n start body s = Ok s' /\ I n s'.
Proof.
  revert start s I; induction n; intros start s I H0 H.
  - exists s; simpl; auto.
  - simpl. destruct (H 0 s) as (s1 & E & HI); [lia|auto|].
    rewrite Nat.add_0_r in E. rewrite E. simpl.
    apply (IHn (Datatypes.S start) s1 (fun i => I (Datatypes.S i))); auto.
    intros i s2 Hi Hs2. destruct (H (Datatypes.S i) s2) as (s3 & E1 & E2); [lia|auto|].
    replace (start + Datatypes.S i) with (Datatypes.S start + i) in E1 by lia. eauto.
Qed.

(** partial correctness: if the loop succeeds the invariant holds *)
Lemma loop_partial {S} n start (body : nat -> S -> res S) (I : nat -> S -> Prop) s s' :
  loop n start body s = Ok s' ->
  I 0 s ->
  (forall i s1 s2, i < n -> I i s1 -> body (start + i) s1 = Ok s2 -> I (Datatypes.S i) s2) ->
  I n s'.
Proof.
  revert start s I; induction n; intros start s I E H0 H; simpl in E.
  - inversion E; subst; auto.
  - apply bind_ok in E as (s1 & E1 & E2).
    apply (IHn (Datatypes.S start) s1 (fun i => I (Datatypes.S i))); auto.
    + apply H with (s1 := s); auto; [lia|]. rewrite Nat.add_0_r; auto.
    + intros i s2 s3 Hi HI Hb. apply H with (s1 := s2); auto; [lia|].
      replace (start + Datatypes.S i) with (Datatypes.S start + i) by lia. auto.
Qed.

Lemma loop_ext {S} n start (f g : nat -> S -> res S) s :
  (forall i s, i < n -> f (start + i) s = g (start + i) s) ->
  loop n start f s = loop n start g s.
Proof.
  revert start s; induction n; intros start s H; simpl; [reflexivity|].
  pose proof (H 0 s ltac:(lia)) as H1. rewrite Nat.add_0_r in H1. rewrite H1.
  destruct (g start s); simpl; auto. apply IHn.
  intros i s1 Hi. replace (Datatypes.S start + i) with (start + Datatypes.S i) by lia. apply H; lia.
Qed.

Lemma loop_app {S} n m start (f : nat -> S -> res S) s :
  loop (n + m) start f s = (let* s' := loop n start f s in loop m (start + n) f s').
Proof.
  revert start s; induction n; intros start s; simpl.
  - rewrite Nat.add_0_r; reflexivity.
  - destruct (f start s); simpl; auto. rewrite IHn.
    replace (Datatypes.S start + n) with (start + Datatypes.S n) by lia. reflexivity.
Qed.

Lemma loop_snoc {S} n start (f : nat -> S -> res S) s :
  loop (Datatypes.S n) start f s = (let* s' := loop n start f s in f (start + n) s').
Proof.
  replace (Datatypes.S n) with (n + 1) by lia. rewrite loop_app.
  destruct (loop n start f s); simpl; auto. destruct (f (start + n) a); auto.
Qed.

(** ** Matrices *)
Definition mk {T} (r c : nat) (g : nat -> nat -> T) : mat T :=
  Mat r c (map (fun k => g (k / c) (k mod c)) (seq 0 (r * c))).

Lemma idx_lt i j r c : i < r -> j < c -> i * c + j < r * c.
Proof. nia. Qed.
Lemma idx_div i j c : j < c -> (i * c + j) / c = i.
Proof. intros. rewrite Nat.div_add_l by lia. rewrite Nat.div_small by lia. lia. Qed.
Lemma idx_mod i j c : j < c -> (i * c + j) mod c = j.
Proof. intros. rewrite Nat.add_comm, Nat.mod_add by lia. apply Nat.mod_small; lia. Qed.
Lemma idx_inv k r c : k < r * c -> k / c < r /\ k mod c < c /\ k = (k / c) * c + k mod c.
Proof.
  intros. assert (c <> 0) by nia. split; [|split].
  - apply Nat.div_lt_upper_bound; lia.
  - apply Nat.mod_upper_bound; lia.
  - rewrite Nat.mul_comm. apply Nat.div_mod; lia.
Qed.

Lemma mk_wf {T} r c (g : nat -> nat -> T) : mwf (mk r c g).
Proof. unfold mwf, mk; simpl. rewrite map_length, seq_length. reflexivity. Qed.

Lemma mk_ext {T} r c (f g : nat -> nat -> T) :
  (forall i j, i < r -> j < c -> f i j = g i j) -> mk r c f = mk r c g.
Proof.
  intros H. unfold mk. f_equal. apply map_ext_in. intros k Hk. apply in_seq in Hk.
  destruct (idx_inv k r c) as (? & ? & ?); [lia|]. auto.
Qed.

Lemma mbuildM_ok {T} r c (f : nat -> nat -> res T) (g : nat -> nat -> T) :
  (forall i j, i < r -> j < c -> f i j = Ok (g i j)) -> mbuildM r c f = Ok (mk r c g).
Proof.
  intros H. unfold mbuildM, mk.
  rewrite (mapM_ok _ (fun k => g (k / c) (k mod c))); [reflexivity|].
  intros k Hk. apply in_seq in Hk. destruct (idx_inv k r c) as (? & ? & ?); [lia|]. auto.
Qed.

Lemma mget_wf {T} (m : mat T) i j d :
  mwf m -> i < rows m -> j < cols m -> mget m i j = Ok (nth (i * cols m + j) (elts m) d).
Proof.
  intros W Hi Hj. unfold mget.
  apply Nat.ltb_lt in Hi as Ei. apply Nat.ltb_lt in Hj as Ej. rewrite Ei, Ej. simpl.
  apply rd_nth. unfold mwf in W. rewrite W. apply idx_lt; auto.
Qed.

Lemma mget_mk {T} r c (g : nat -> nat -> T) i j :
  i < r -> j < c -> mget (mk r c g) i j = Ok (g i j).
Proof.
  intros Hi Hj. rewrite (mget_wf (mk r c g) i j (g 0 0)); auto using mk_wf.
  f_equal. unfold mk; simpl.
  rewrite nth_map_seq by (apply idx_lt; auto).
  rewrite idx_div, idx_mod by auto. reflexivity.
Qed.

Lemma mget_ok_lt {T} (m : mat T) i j v : mget m i j = Ok v -> i < rows m /\ j < cols m.
Proof.
  unfold mget. destruct (Nat.ltb_spec i (rows m)), (Nat.ltb_spec j (cols m)); simpl; try discriminate; auto.
Qed.

Definition mel {T} (d : T) (m : mat T) (i j : nat) : T := nth (i * cols m + j) (elts m) d.

Lemma mat_eta {T} (d : T) (m : mat T) :
  mwf m -> m = mk (rows m) (cols m) (mel d m).
Proof.
  intros W. destruct m as [r c l]; unfold mk, mel, mwf in *; simpl in *. f_equal.
  rewrite <- W at 1. rewrite <- (map_seq_nth l d) at 1.
  apply map_ext_in. intros k Hk. apply in_seq in Hk. rewrite W in Hk.
  destruct (idx_inv k r c) as (? & ? & E); [lia|].
  rewrite <- E. reflexivity.
Qed.

Lemma mel_mk {T} (d : T) r c g i j : i < r -> j < c -> mel d (mk r c g) i j = g i j.
Proof.
  intros. pose proof (mget_mk r c g i j H H0) as E.
  rewrite (mget_wf _ i j d) in E; auto using mk_wf. inversion E; auto.
Qed.

Lemma mget_mel {T} (d : T) (m : mat T) i j :
  mwf m -> i < rows m -> j < cols m -> mget m i j = Ok (mel d m i j).
Proof. intros; apply mget_wf; auto. Qed.

Lemma mat_ext {T} (d : T) (m1 m2 : mat T) :
  mwf m1 -> mwf m2 -> rows m1 = rows m2 -> cols m1 = cols m2 ->
  (forall i j, i < rows m1 -> j < cols m1 -> mel d m1 i j = mel d m2 i j) -> m1 = m2.
Proof.
  intros W1 W2 R C H. rewrite (mat_eta d m1 W1), (mat_eta d m2 W2), <- R, <- C.
  apply mk_ext. auto.
Qed.

Lemma mk_eta {T} (d : T) r c (g : nat -> nat -> T) : mk r c (mel d (mk r c g)) = mk r c g.
Proof. apply mk_ext; intros; apply mel_mk; auto. Qed.

Lemma rows_mk {T} r c (g : nat -> nat -> T) : rows (mk r c g) = r. Proof. reflexivity. Qed.
Lemma cols_mk {T} r c (g : nat -> nat -> T) : cols (mk r c g) = c. Proof. reflexivity. Qed.

Lemma msub_mk {T} r c (g : nat -> nat -> T) r0 c0 h w :
  r0 + h <= r -> c0 + w <= c ->
  msub (mk r c g) r0 c0 h w = Ok (mk h w (fun i j => g (r0 + i) (c0 + j))).
Proof.
  intros H1 H2. unfold msub. simpl rows; simpl cols.
  apply Nat.leb_le in H1 as E1; apply Nat.leb_le in H2 as E2. rewrite E1, E2. simpl.
  apply mbuildM_ok. intros. apply mget_mk; lia.
Qed.

Lemma mblit_mk {T} r c (g : nat -> nat -> T) r0 c0 h w src (s : nat -> nat -> T) :
  r0 + h <= r -> c0 + w <= c ->
  (forall i j, i < h -> j < w -> src i j = Ok (s i j)) ->
  mblit (mk r c g) r0 c0 h w src =
  Ok (mk r c (fun i j => if (r0 <=? i) && (i <? r0 + h) && (c0 <=? j) && (j <? c0 + w)
                         then s (i - r0) (j - c0) else g i j)).
Proof.
  intros H1 H2 Hs. unfold mblit. simpl rows; simpl cols.
  apply Nat.leb_le in H1 as E1; apply Nat.leb_le in H2 as E2. rewrite E1, E2. simpl.
  apply mbuildM_ok. intros i j Hi Hj.
  destruct (Nat.leb_spec r0 i); simpl; [|apply mget_mk; lia].
  destruct (Nat.ltb_spec i (r0 + h)); simpl; [|apply mget_mk; lia].
  destruct (Nat.leb_spec c0 j); simpl; [|apply mget_mk; lia].
  destruct (Nat.ltb_spec j (c0 + w)); simpl; [|apply mget_mk; lia].
  apply Hs; lia.
Qed.

Lemma mundef_mk {T} r c : @mundef T r c = mk r c (fun _ _ => None).
Proof.
  unfold mundef, mk. f_equal. generalize (r * c) as n. intros n.
  transitivity (map (fun _ : nat => @None T) (seq 0 n)); [|reflexivity].
  generalize 0. induction n; intros; simpl; [reflexivity|]. f_equal. apply IHn.
Qed.

Lemma mfreeze_mk {T} r c (g : nat -> nat -> option T) (f : nat -> nat -> T) :
  (forall i j, i < r -> j < c -> g i j = Some (f i j)) ->
  mfreeze (mk r c g) = Ok (mk r c f).
Proof.
  intros H. unfold mfreeze, mk; simpl.
  assert (E : forall l, (forall k, In k l -> k < r * c) ->
     mapM (fun o : option T => match o with Some v => Ok v | None => UB end)
       (map (fun k => g (k / c) (k mod c)) l) = Ok (map (fun k => f (k / c) (k mod c)) l)).
  { induction l; simpl; intros Hl; [reflexivity|].
    destruct (idx_inv a r c) as (? & ? & ?); [auto|].
    rewrite H by auto. simpl. rewrite IHl by auto. reflexivity. }
  rewrite E; [reflexivity|]. intros k Hk. apply in_seq in Hk; lia.
Qed.

Lemma mrow_mk {T} r c (g : nat -> nat -> T) i :
  i < r -> mrow (mk r c g) i = Ok (map (fun j => g i j) (seq 0 c)).
Proof.
  intros Hi. unfold mrow. simpl rows; simpl cols. apply Nat.ltb_lt in Hi as E. rewrite E. simpl.
  apply tabulateM_ok. intros; apply mget_mk; auto.
Qed.
Lemma mcol_mk {T} r c (g : nat -> nat -> T) j :
  j < c -> mcol (mk r c g) j = Ok (map (fun i => g i j) (seq 0 r)).
Proof.
  intros Hj. unfold mcol. simpl rows; simpl cols. apply Nat.ltb_lt in Hj as E. rewrite E. simpl.
  apply tabulateM_ok. intros; apply mget_mk; auto.
Qed.

Lemma mcolvec_mk {T} n (f : nat -> T) : mcolvec (map f (seq 0 n)) = mk n 1 (fun i _ => f i).
Proof.
  unfold mcolvec, mk. rewrite map_length, seq_length. f_equal.
  rewrite Nat.mul_1_r. apply map_ext. intros. rewrite Nat.div_1_r. reflexivity.
Qed.

Lemma mcolvec_col {T} (l : list T) : mcol (mcolvec l) 0 = Ok l.
Proof.
  destruct l as [|a l]; [reflexivity|].
  remember (a :: l) as v.
  rewrite <- (map_seq_nth v a) at 1. rewrite mcolvec_mk, mcol_mk by lia.
  rewrite map_seq_nth. reflexivity.
Qed.

Lemma mcolvec_wf {T} (l : list T) : mwf (mcolvec l).
Proof. unfold mwf, mcolvec; simpl. lia. Qed.

Lemma concat_map_mk {T} r c (g : nat -> nat -> T) :
  Mat r c (concat (map (fun i => map (fun j => g i j) (seq 0 c)) (seq 0 r))) = mk r c g.
Proof.
  unfold mk. f_equal.
  assert (H : forall s, concat (map (fun i => map (fun j => g i j) (seq 0 c)) (seq s r)) =
     map (fun k => g (k / c) (k mod c)) (seq (s * c) (r * c))).
  { induction r; intros s; simpl; [reflexivity|].
    rewrite IHr. rewrite seq_app, map_app. f_equal.
    - destruct c; [reflexivity|].
      rewrite <- (Nat.add_0_r (s * S c)) at 1.
      transitivity (map (fun k => g (k / S c) (k mod S c)) (map (fun j => s * S c + j) (seq 0 (S c)))).
      + rewrite map_map. apply map_ext_in. intros j Hj. apply in_seq in Hj.
        rewrite idx_div, idx_mod by lia. reflexivity.
      + f_equal. clear. generalize (S c) as n; intros n.
        generalize (s * n) as a. intros a. revert a. 
        assert (forall m b, map (fun j => m + j) (seq b n) = seq (m + b) n).
        { induction n; intros; simpl; [reflexivity|]. f_equal. rewrite IHn. f_equal; lia. }
        intros. rewrite H. f_equal; lia.
    - f_equal. f_equal; lia. }
  rewrite (H 0). reflexivity.
Qed.

Lemma skipn_skipn_add {A} a b (l : list A) : skipn a (skipn b l) = skipn (b + a) l.
Proof.
  revert l; induction b; intros l; simpl; [reflexivity|].
  destruct l; [apply skipn_nil|]. apply IHb.
Qed.
