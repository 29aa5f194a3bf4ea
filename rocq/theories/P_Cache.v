(** * P_Cache: proofs about the matrix cache *)
Require Import List Bool Arith ZArith Lia.
Require Import Verif.M_Base Verif.M_Params Verif.M_Buffer Verif.M_View Verif.M_Cache Verif.S_Cache
  Verif.P_Base Verif.P_Params.
Import ListNotations.
Open Scope nat_scope.

(** ** The map *)
Lemma equiv_eq a b : params_ltb a b = false -> params_ltb b a = false -> a = b.
Proof.
  intros H1 H2. destruct params_order as (_ & _ & _ & _ & He & Hl & _).
  apply He, Hl. auto.
Qed.
Lemma ltb_irrefl a : params_ltb a a = false.
Proof. destruct params_order as (H & _). apply H. Qed.
Lemma params_dec (a b : params) : {a = b} + {a <> b}.
Proof.
  destruct (params_eqb a b) eqn:E.
  - left. destruct params_order as (_ & _ & _ & _ & He & _). apply He, E.
  - right. intros ->. destruct params_order as (_ & _ & _ & _ & He & _).
    assert (params_eqb b b = true) by (apply He; auto). congruence.
Qed.

Lemma tinsert_new p a t : tfind p t = None ->
  exists t', tinsert p a t = (t', a) /\ tfind p t' = Some a /\
    forall q, q <> p -> tfind q t' = tfind q t.
Proof.
  induction t as [|l IHl k b r IHr]; cbn; intros Hn.
  - eexists; split; [reflexivity|]. cbn. rewrite ltb_irrefl. split; auto.
    intros q Hq. destruct (params_ltb q p) eqn:E1; auto.
    destruct (params_ltb p q) eqn:E2; auto. exfalso; apply Hq, equiv_eq; auto.
  - destruct (params_ltb p k) eqn:E1; [|destruct (params_ltb k p) eqn:E2; [|discriminate]].
    + destruct (IHl Hn) as (t' & H1 & H2 & H3). rewrite H1. eexists; split; [reflexivity|].
      cbn. rewrite E1. split; auto. intros q Hq. cbn.
      destruct (params_ltb q k); auto.
    + destruct (IHr Hn) as (t' & H1 & H2 & H3). rewrite H1. eexists; split; [reflexivity|].
      cbn. rewrite E1, E2. split; auto. intros q Hq. cbn.
      destruct (params_ltb q k); auto. destruct (params_ltb k q); auto.
Qed.

(** ** One thread *)
Section Seq.
Context {T : Type} {A : Arith T}.

Definition fresh_stack (p : params) : res (stack T) :=
  let* padded := calc_padded (wtype p) (shape p) (steps p) in gen_matrices padded p.

Definition good (c : cache T) : Prop :=
  (forall p a, tfind p (plain c) = Some a ->
     exists st, fresh_stack p = Ok st /\ nth_error (cells c) a = Some st) /\
  (forall p a, tfind p (transposed c) = Some a ->
     exists st, fresh_stack p = Ok st /\ nth_error (tcells c) a = Some (map (map stranspose) st)).

Lemma good_empty : good empty_cache.
Proof. split; intros p a H; discriminate. Qed.

Lemma nth_error_snoc {X} (l : list X) x : nth_error (l ++ [x]) (length l) = Some x.
Proof. rewrite nth_error_app2, Nat.sub_diag by lia. reflexivity. Qed.
Lemma nth_error_weaken {X} (l l' : list X) i x : nth_error l i = Some x -> nth_error (l ++ l') i = Some x.
Proof. intros H. rewrite nth_error_app1; auto. apply nth_error_Some. congruence. Qed.

Lemma generate_ok c padded p : good c -> calc_padded (wtype p) (shape p) (steps p) = Ok padded ->
  let '(c', r) := generate_matrices c padded p in
  good c' /\ transposed c' = transposed c /\
  match gen_matrices padded p with
  | Ok st => exists a, r = Ok a /\ nth_error (cells c') a = Some st
  | Throw => r = Throw
  | UB => r = UB
  end.
Proof.
  intros (Hg & Ht) Hp. unfold generate_matrices.
  assert (HF : fresh_stack p = gen_matrices padded p) by (unfold fresh_stack; rewrite Hp; reflexivity).
  destruct (tfind p (plain c)) as [a|] eqn:Ef.
  - destruct (Hg _ _ Ef) as (st & H1 & H2). rewrite <- HF, H1.
    split; [split; auto|]. split; auto. eauto.
  - destruct (gen_matrices padded p) as [st| |] eqn:Eg; cbn [cbind];
      [|split; [split; auto|split; auto]..].
    destruct (tinsert_new p (length (cells c)) _ Ef) as (t' & H1 & H2 & H3). rewrite H1. cbn.
    split; [split|].
    + cbn. intros q a Hq. destruct (params_dec q p) as [->|Hne].
      * rewrite H2 in Hq. injection Hq as <-. exists st. rewrite HF. split; auto. apply nth_error_snoc.
      * rewrite H3 in Hq by auto. destruct (Hg _ _ Hq) as (st' & Ha & Hb). exists st'. split; auto.
        apply nth_error_weaken; auto.
    + cbn. auto.
    + split; auto. exists (length (cells c)). split; auto. apply nth_error_snoc.
Qed.

Lemma generate_trans_ok c padded p : good c -> calc_padded (wtype p) (shape p) (steps p) = Ok padded ->
  let '(c', r) := generate_trans_matrices c padded p in
  good c' /\
  match gen_trans_matrices padded p with
  | Ok st => exists a, r = Ok a /\ nth_error (tcells c') a = Some st
  | Throw => r = Throw
  | UB => r = UB
  end.
Proof.
  intros Hgood Hp. unfold generate_trans_matrices, gen_trans_matrices.
  assert (HF : fresh_stack p = gen_matrices padded p) by (unfold fresh_stack; rewrite Hp; reflexivity).
  destruct (tfind p (transposed c)) as [a|] eqn:Ef.
  - destruct Hgood as (Hg & Ht). destruct (Ht _ _ Ef) as (st & H1 & H2). rewrite <- HF, H1. cbn [bind].
    split; [split; auto|]. eauto.
  - pose proof (generate_ok c padded p Hgood Hp) as H.
    destruct (generate_matrices c padded p) as [c' r] eqn:Eg.
    destruct H as ((Hg & Ht) & Hsame & Hr).
    destruct (gen_matrices padded p) as [st| |] eqn:E; cbn [bind];
      [|subst r; cbn [cbind]; split; [split|]; auto..].
    destruct Hr as (a & -> & Hn). cbn [cbind].
    rewrite (rd_some _ _ _ Hn). cbn [cbind].
    assert (Hf : tfind p (transposed c') = None) by congruence.
    destruct (tinsert_new p (length (tcells c')) _ Hf) as (t' & H1 & H2 & H3). rewrite H1. cbn.
    split; [split|].
    + cbn. auto.
    + cbn. intros q b Hq. destruct (params_dec q p) as [->|Hne].
      * rewrite H2 in Hq. injection Hq as <-. exists st. rewrite HF. split; auto. apply nth_error_snoc.
      * rewrite H3 in Hq by auto. destruct (Ht _ _ Hq) as (st' & Ha & Hb). exists st'. split; auto.
        apply nth_error_weaken; auto.
    + eexists; split; [reflexivity|]. apply nth_error_snoc.
Qed.

Ltac triv := cbn [cbind bind]; split; [assumption|reflexivity].

Lemma decompose_impl_c_ok c p dec data den st n : good c ->
  let '(c', r) := decompose_impl_c c p dec data den st n in
  good c' /\ r = decompose_impl p dec data den st n.
Proof.
  intros Hgood. unfold decompose_impl_c, decompose_impl.
  destruct (shape_ok p data (Z.of_nat n)) as [ok| |] eqn:Es;
    [|unfold decompose_impl_gen; rewrite Es; triv..].
  cbn [cbind]. destruct ok; cbn [negb]; [|unfold decompose_impl_gen; rewrite Es; cbn; auto].
  destruct (calc_padded (wtype p) (shape p) (steps p)) as [padded| |] eqn:Ep;
    [|unfold decompose_impl_gen; rewrite Es, Ep; triv..].
  cbn [cbind]. destruct (dimension p =? 2) eqn:Ed.
  - pose proof (generate_ok c padded p Hgood Ep) as H.
    destruct (generate_matrices c padded p) as [c' r]. destruct H as (Hg & _ & Hr).
    unfold decompose_impl_gen. rewrite Es, Ep, Ed. cbn [bind negb].
    destruct (gen_matrices padded p) as [stk| |] eqn:E;
      [|subst r; triv..].
    destruct Hr as (a & -> & Hn). cbn [cbind]. rewrite (rd_some _ _ _ Hn). triv.
  - unfold decompose_impl_gen. rewrite Es, Ep, Ed. triv.
Qed.

Lemma compose_impl_c_ok c p dec k st n : good c ->
  let '(c', r) := compose_impl_c c p dec k st n in
  good c' /\ r = compose_impl p dec k st n.
Proof.
  intros Hgood. unfold compose_impl_c, compose_impl.
  destruct (dimension p =? 2) eqn:Ed;
    [|unfold compose_impl_gen, compose_partial_gen; rewrite Ed; triv].
  destruct (calc_padded (wtype p) (shape p) (steps p)) as [padded| |] eqn:Ep;
    [|unfold compose_impl_gen, compose_partial_gen; rewrite Ed, Ep; triv..].
  cbn [cbind]. pose proof (generate_trans_ok c padded p Hgood Ep) as H.
  destruct (generate_trans_matrices c padded p) as [c' r]. destruct H as (Hg & Hr).
  unfold compose_impl_gen, compose_partial_gen. rewrite Ep, Ed. cbn [bind negb].
  destruct (gen_trans_matrices padded p) as [stk| |] eqn:E;
    [|subst r; triv..].
  destruct Hr as (a & -> & Hn). cbn [cbind]. rewrite (rd_some _ _ _ Hn). triv.
Qed.

Lemma decompose_more_c_ok c p dec more den : good c ->
  let '(c', r) := decompose_more_c c p dec more den in
  good c' /\ r = decompose_more p dec more den.
Proof.
  intros Hgood. unfold decompose_more_c, decompose_more.
  destruct (calc_padded (wtype p) (shape p) (steps p)) as [padded| |] eqn:Ep;
    [|unfold decompose_more_gen; rewrite Ep; triv..].
  cbn [cbind]. pose proof (generate_ok c padded p Hgood Ep) as H.
  destruct (generate_matrices c padded p) as [c' r]. destruct H as (Hg & _ & Hr).
  unfold decompose_more_gen. rewrite Ep. cbn [bind].
  destruct (gen_matrices padded p) as [stk| |] eqn:E;
    [|subst r; triv..].
  destruct Hr as (a & -> & Hn). cbn [cbind]. rewrite (rd_some _ _ _ Hn). triv.
Qed.

Lemma cached_ok h c : good h ->
  let '(h', r) := cached h c in good h' /\ r = fresh c.
Proof.
  intros Hg. destruct c; cbn [cached fresh].
  - unfold decompose_c, decompose.
    pose proof (decompose_impl_c_ok h (bpar b) (bdec b) data den 0 (Z.to_nat (signum (bpar b))) Hg) as H.
    destruct (decompose_impl_c _ _ _ _ _ _ _) as [h' r]. destruct H as (H1 & ->).
    destruct (decompose_impl _ _ _ _ _ _) as [[? ?]| |]; triv.
  - unfold decompose1_c, decompose1.
    pose proof (decompose_impl_c_ok h (bpar b) (bdec b) [mcolvec data] den 0 1 Hg) as H.
    destruct (decompose_impl_c _ _ _ _ _ _ _) as [h' r]. destruct H as (H1 & ->).
    destruct (decompose_impl _ _ _ _ _ _) as [[? ?]| |]; triv.
  - unfold compose_c, compose. destruct (scale_arg sf) as [k| |]; [|triv..]. cbn [cbind bind].
    pose proof (compose_impl_c_ok h (bpar b) (bdec b) k 0 (Z.to_nat (signum (bpar b))) Hg) as H.
    destruct (compose_impl_c _ _ _ _ _ _) as [h' r]. destruct H as (H1 & ->).
    destruct (compose_impl _ _ _ _ _) as [[? ?]| |]; triv.
  - unfold compose1_c, compose1. destruct (scale_arg sf) as [k| |]; [|triv..]. cbn [cbind bind].
    pose proof (compose_impl_c_ok h (bpar b) (bdec b) k 0 (Z.to_nat (signum (bpar b))) Hg) as H.
    destruct (compose_impl_c _ _ _ _ _ _) as [h' r]. destruct H as (H1 & ->).
    destruct (compose_impl _ _ _ _ _) as [[r l]| |]; [|triv..]. cbn [cbind bind fst snd].
    destruct r; [|triv]. destruct (rd l 0) as [m| |]; [|triv..]. cbn [bind].
    destruct (mcol m 0); triv.
  - unfold view_decompose_c, view_decompose.
    destruct (check_range v b) as [ok| |]; [|triv..]. cbn [cbind bind].
    destruct ok; cbn [negb]; [|triv].
    destruct (guard (vmutable v)); [|triv..]. cbn [cbind bind].
    destruct (odd_range v).
    + destruct (shape_ok (bpar b) data (wrap64 (vcount v))) as [ok| |]; [|triv..]. cbn [cbind bind].
      split; [|reflexivity]. destruct ok; cbn [negb]; auto.
      destruct (calc_padded _ _ _) as [padded| |] eqn:Ep; auto.
      destruct (dimension (bpar b) =? 2); auto.
      pose proof (generate_ok h padded (bpar b) Hg Ep) as H.
      destruct (generate_matrices h padded (bpar b)). apply H.
    + pose proof (decompose_impl_c_ok h (bpar b) (bdec b) data den (Z.to_nat (vstart v)) (Z.to_nat (vcount v)) Hg) as H.
      destruct (decompose_impl_c _ _ _ _ _ _ _) as [h' r]. destruct H as (H1 & ->).
      destruct (decompose_impl _ _ _ _ _ _) as [[? ?]| |]; triv.
  - unfold view_compose_c, view_compose.
    destruct (check_range v b) as [ok| |]; [|triv..]. cbn [cbind bind].
    destruct ok; cbn [negb]; [|triv].
    destruct (scale_arg sf) as [k| |]; [|triv..]. cbn [cbind bind].
    destruct (vcount v <? 0)%Z; [triv|].
    destruct ((vstart v <? 0)%Z && (0 <? vcount v)%Z); [triv|].
    pose proof (compose_impl_c_ok h (bpar b) (bdec b) k (Z.to_nat (vstart v)) (Z.to_nat (vcount v)) Hg) as H.
    destruct (compose_impl_c _ _ _ _ _ _) as [h' r]. destruct H as (H1 & ->).
    destruct (compose_impl _ _ _ _ _) as [[? ?]| |]; triv.
  - pose proof (decompose_more_c_ok h p dec more den Hg) as H.
    destruct (decompose_more_c _ _ _ _ _) as [h' r]. destruct H as (H1 & ->).
    destruct (decompose_more _ _ _ _); triv.
Qed.

Lemma history_ok cs : forall h, good h -> history h cs = history_fresh cs.
Proof.
  induction cs as [|c cs IH]; intros h Hg; cbn [history history_fresh]; auto.
  pose proof (cached_ok h c Hg) as H. destruct (cached h c) as [h' r]. destruct H as (H1 & ->).
  destruct (fresh c); auto; f_equal; auto.
Qed.

Lemma history_transparent cs : history empty_cache cs = history_fresh cs.
Proof. apply history_ok, good_empty. Qed.
End Seq.
