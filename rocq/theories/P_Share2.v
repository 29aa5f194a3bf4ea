(** * P_Share2: the programs of M_Share do what the calls do *)
Require Import List Bool Arith ZArith Lia.
Require Import Verif.M_Base Verif.M_Params Verif.M_Padding Verif.M_Wavelet Verif.M_Buffer Verif.M_View.
Require Import Verif.P_Base Verif.P_Object.
Require Import Verif.M_Share Verif.S_Share Verif.P_Share.
Import ListNotations.
Open Scope nat_scope.

Section Calls.
Context {T : Type} {A : Arith T}.
Implicit Types m : mem T.

Lemma exec_then {X Y} (a : prog T X) (f : X -> prog T Y) m :
  exec (then_ a f) m =
  let* o := exec a m in let* o' := exec (f (fst (fst o))) (snd (fst o)) in Ok (fst o', snd o + snd o').
Proof.
  revert m. induction a as [r|j k IH|j d k IH|l' k IH|l' z k IH]; intros m; cbn [then_ exec].
  - destruct r as [x| |]; cbn; auto. destruct (exec (f x) m) as [[? ?]| |]; reflexivity.
  - destruct (head m j) as [h| |]; cbn; auto. rewrite IH.
    destruct (exec (k (fst h) (snd h)) m) as [o| |]; cbn; auto.
    now destruct (exec (f (fst (fst o))) (snd (fst o))) as [o'| |].
  - destruct (size m j d) as [h| |]; cbn; auto. rewrite IH.
    destruct (exec (k h) m) as [o| |]; cbn; auto.
    now destruct (exec (f (fst (fst o))) (snd (fst o))) as [o'| |].
  - destruct (get m l') as [h| |]; cbn; auto. rewrite IH.
    destruct (exec (k h) m) as [o| |]; cbn; auto.
    now destruct (exec (f (fst (fst o))) (snd (fst o))) as [o'| |].
  - destruct (put m l' z) as [h| |]; cbn; auto. rewrite IH.
    destruct (exec k h) as [o| |]; cbn; auto.
    now destruct (exec (f (fst (fst o))) (snd (fst o))) as [o'| |].
Qed.

Definition runs {X} (a : prog T X) m (x : X) m' := exists n, exec a m = Ok (x, m', n).
Lemma runs_then {X Y} (a : prog T X) (f : X -> prog T Y) m x m1 y m2 :
  runs a m x m1 -> runs (f x) m1 y m2 -> runs (then_ a f) m y m2.
Proof. intros (n1 & E1) (n2 & E2). exists (n1 + n2). rewrite exec_then, E1. cbn. now rewrite E2. Qed.
Lemma runs_ret {X} (x : X) m : runs (Stop (Ok x)) m x m.
Proof. now exists 0. Qed.
Lemma runs_let {X Y} (r : res X) x (f : X -> prog T Y) m y m' : r = Ok x ->
  runs (f x) m y m' -> runs (then_ (Stop r) f) m y m'.
Proof. intros -> H. exact H. Qed.
Lemma runs_get {X} l (k : mat T -> prog T X) m x y m' : get m l = Ok x -> runs (k x) m y m' -> runs (Get l k) m y m'.
Proof. intros E (n & H). exists (S n). cbn. rewrite E. cbn. now rewrite H. Qed.
Lemma runs_size {X} i c (k : nat -> prog T X) m n y m' : size m i c = Ok n -> runs (k n) m y m' -> runs (Size i c k) m y m'.
Proof. intros E (n' & H). exists (S n'). cbn. rewrite E. cbn. now rewrite H. Qed.
Lemma runs_put {X} l z (k : prog T X) m m1 y m' : put m l z = Ok m1 -> runs k m1 y m' -> runs (Put l z k) m y m'.
Proof. intros E (n & H). exists (S n). cbn. rewrite E. cbn. now rewrite H. Qed.

Lemma runs_loop {S S'} (Rel : S -> S' -> mem T -> Prop) n st (body : nat -> S -> res S) (pbody : nat -> S' -> prog T S') :
  (forall k s s1 s' m, st <= k < st + n -> Rel s s' m -> body k s = Ok s1 ->
     exists s1' m1, runs (pbody k s') m s1' m1 /\ Rel s1 s1' m1) ->
  forall s s1 s' m, Rel s s' m -> loop n st body s = Ok s1 ->
  exists s1' m1, runs (ploop n st pbody s') m s1' m1 /\ Rel s1 s1' m1.
Proof.
  revert st. induction n as [|n IH]; intros st H s s1 s' m R E; cbn in *.
  - injection E as <-. exists s', m. split; [apply runs_ret|exact R].
  - apply bind_ok in E as (s2 & E1 & E). destruct (H st s s2 s' m) as (s2' & m2 & Hr & R2); auto; [lia|].
    destruct (IH (Datatypes.S st)) with (s := s2) (s1 := s1) (s' := s2') (m := m2) as (s1' & m1 & Hr1 & R1); auto.
    { intros. apply (H k s0); auto. lia. }
    exists s1', m1. split; auto. eapply runs_then; eauto.
Qed.
(** loops and maps that only read *)
Lemma runs_loop_same {S} n st (body : nat -> S -> res S) (pbody : nat -> S -> prog T S) m :
  (forall k s s1, st <= k < st + n -> body k s = Ok s1 -> runs (pbody k s) m s1 m) ->
  forall s s1, loop n st body s = Ok s1 -> runs (ploop n st pbody s) m s1 m.
Proof.
  intros H s s1 E.
  destruct (runs_loop (fun s s' m1 => s' = s /\ m1 = m) n st body pbody) with (s := s) (s1 := s1) (s' := s) (m := m)
    as (s1' & m1 & Hr & -> & ->); auto.
  intros k s0 s2 s' m0 L (-> & ->) E0. exists s2, m. auto.
Qed.
Lemma runs_map {X Y} (f : X -> res Y) (pf : X -> prog T Y) m l ys :
  (forall x y, In x l -> f x = Ok y -> runs (pf x) m y m) -> mapM f l = Ok ys -> runs (pmap pf l) m ys m.
Proof.
  revert ys. induction l as [|x l IH]; intros ys H E; cbn in *.
  - injection E as <-. apply runs_ret.
  - apply bind_ok in E as (y & E1 & E). apply bind_ok in E as (t & E2 & E). injection E as <-.
    eapply runs_then; [eauto|]. eapply runs_then; [apply IH; eauto|]. apply runs_ret.
Qed.

Section One.
Variables (m : mem T) (i : nat) (p : params).
Hypothesis Li : i < length m.
Notation mem_with d := (upd m i (Buffer p d)).

Lemma mem_with_nth d : nth_error (mem_with d) i = Some (Buffer p d).
Proof. now apply upd_nth_eq. Qed.

(** ** Decompose *)
Lemma runs_store dec c ch off l ch' : c < length dec -> store ch off l = Ok ch' ->
  runs (pstore i c off l) (mem_with (upd dec c ch)) tt (mem_with (upd dec c ch')).
Proof.
  intros Lc. revert ch off. induction l as [|s l IH]; intros ch off E; cbn in *.
  - injection E as <-. apply runs_ret.
  - apply bind_ok in E as (ch1 & E1 & E). apply wr_ok in E1 as (L1 & ->).
    eapply runs_put; [|apply IH, E].
    rewrite (put_intro _ (Loc i c off) s (Buffer p (upd dec c ch)) ch); cbn; auto.
    + now rewrite !upd_upd.
    + apply mem_with_nth.
    + now apply upd_nth_eq.
Qed.
Lemma runs_decompose_channel den padded mats data dec c ch ch' : c < length dec ->
  decompose_channel p den padded mats ch data = Ok ch' ->
  runs (pdecompose_channel i c p den padded mats data) (mem_with (upd dec c ch)) tt (mem_with (upd dec c ch')).
Proof.
  intros Lc E. unfold decompose_channel in E. apply bind_ok in E as (channel & E0 & E).
  apply bind_ok in E as ([chn low] & E1 & E). cbn [fst snd] in E.
  unfold pdecompose_channel. eapply runs_let; [exact E0|]. cbv zeta.
  edestruct (runs_loop (fun (s : decomposition T * mat T) s' m1 => s' = snd s /\ m1 = mem_with (upd dec c (fst s))))
    as (low' & m1 & Hr & -> & ->).
  3: exact E1.
  3: { eapply runs_then; [exact Hr|]. cbn [fst snd]. apply wr_ok in E as (L & ->).
       eapply runs_put; [|apply runs_ret].
       rewrite (put_intro _ (Loc i c (Z.to_nat (steps p) * spw p)) low (Buffer p (upd dec c chn)) chn); cbn; auto.
       - now rewrite !upd_upd.
       - apply mem_with_nth.
       - now apply upd_nth_eq. }
  2: cbn; auto.
  intros k [d x] [d1 x1] s' m0 _ (-> & ->) Eb. cbn [fst snd] in *.
  apply bind_ok in Eb as (wm & Ew & Eb). apply bind_ok in Eb as (r & Er & Eb). apply bind_ok in Eb as (d' & Ed & Eb).
  injection Eb as <- <-. exists (snd r), (mem_with (upd dec c d')). split; [|auto].
  eapply runs_let; [exact Ew|]. eapply runs_let; [exact Er|]. eapply runs_then; [|apply runs_ret].
  now apply runs_store.
Qed.
Lemma runs_decompose data den st n dec ok dec' : decompose_impl p dec data den st n = Ok (ok, dec') ->
  runs (pdecompose_impl i p data den st n) (mem_with dec) ok (mem_with dec').
Proof.
  intros E. unfold decompose_impl, decompose_impl_gen in E. apply bind_ok in E as (sok & Es & E).
  unfold pdecompose_impl. eapply runs_let; [exact Es|]. cbv beta.
  destruct sok; cbn [negb] in *; [|injection E as <- <-; apply runs_ret].
  apply bind_ok in E as (padded & Ep & E). apply bind_ok in E as (stack & Est & E). apply bind_ok in E as (dmat & Edm & E).
  cbv zeta in E. apply bind_ok in E as (dec2 & E1 & E). injection E as <- <-.
  eapply runs_let; [exact Ep|]. eapply runs_let; [exact Est|]. eapply runs_let; [exact Edm|]. cbv zeta.
  edestruct (runs_loop (fun (d : ndecomposition T) (_ : unit) m1 => m1 = mem_with d)) as ([] & m1 & Hr & ->).
  3: exact E1.
  3: { eapply runs_then; [exact Hr|]. apply runs_ret. }
  2: reflexivity.
  intros ch d d1 [] m0 _ -> Eb. cbv beta in Eb.
  apply bind_ok in Eb as (dat & E2 & Eb). apply bind_ok in Eb as (sub & E3 & Eb). apply bind_ok in Eb as (sub' & E4 & Eb).
  apply wr_ok in Eb as (Lc & ->). exists tt, (mem_with (upd d ch sub')). split; auto.
  eapply runs_let; [exact E2|]. apply rd_ok in E3.
  rewrite <- (upd_same d ch sub E3) at 1. now apply runs_decompose_channel.
Qed.

End One.

(** ** Compose *)
Section Two.
Variables (i : nat) (p : params).
Lemma rd_all {X} (pre l : list X) : mapM (rd (pre ++ l)) (seq (length pre) (length l)) = Ok l.
Proof.
  revert pre. induction l as [|x l IH]; intros pre; cbn; [reflexivity|].
  unfold rd at 1. rewrite nth_error_app2, Nat.sub_diag by lia. cbn.
  specialize (IH (pre ++ [x])). rewrite app_length in IH. cbn in IH. rewrite <- app_assoc in IH. cbn in IH.
  rewrite Nat.add_1_r in IH. now rewrite IH.
Qed.
Lemma get_mem m0 dec c ch s x : nth_error m0 i = Some (Buffer p dec) -> nth_error dec c = Some ch -> rd ch s = Ok x ->
  get m0 (Loc i c s) = Ok x.
Proof. intros E1 E2 E3. unfold get. cbn. rewrite (rd_some _ _ _ E1). cbn. rewrite (rd_some _ _ _ E2). exact E3. Qed.
Lemma runs_copy m0 dec c ch : nth_error m0 i = Some (Buffer p dec) -> nth_error dec c = Some ch ->
  runs (pcopy_channel i c) m0 ch m0.
Proof.
  intros E1 E2. unfold pcopy_channel.
  assert (Hr : runs (pmap (fun s => Get (Loc i c s) ret) (seq 0 (length ch))) m0 ch m0).
  { apply runs_map with (f := rd ch); [|apply (rd_all [] ch)].
    intros s y _ E. eapply runs_get; [eapply get_mem; eauto|]. apply runs_ret. }
  eapply runs_size; [|exact Hr]. unfold size. rewrite (rd_some _ _ _ E1). cbn [bind bdec].
  now rewrite (rd_some _ _ _ E2).
Qed.
Lemma runs_compose_step m0 dec c ch dim low src wm r :
  nth_error m0 i = Some (Buffer p dec) -> nth_error dec c = Some ch ->
  compose_step dim low ch src wm = Ok r -> runs (pcompose_step i c dim low src wm) m0 r m0.
Proof.
  intros E1 E2 E. unfold compose_step in E. unfold pcompose_step. destruct (dim =? 1).
  - apply bind_ok in E as (u & G & E). apply bind_ok in E as (hi & Eh & E). apply bind_ok in E as (lc & El & E).
    apply bind_ok in E as (hc & Ehc & E). apply bind_ok in E as (w0 & Ew & E). apply bind_ok in E as (v & Ev & E).
    injection E as <-.
    eapply runs_let; [exact G|]. eapply runs_get; [eapply get_mem; eauto|]. eapply runs_let; [exact El|].
    eapply runs_let; [exact Ehc|]. eapply runs_let; [exact Ew|]. eapply runs_let; [exact Ev|]. apply runs_ret.
  - apply bind_ok in E as (u & G & E). apply bind_ok in E as (lh & Eh & E). apply bind_ok in E as (hl & El & E).
    apply bind_ok in E as (hh & Ehc & E). apply bind_ok in E as (w0 & Ew & E). apply bind_ok in E as (w1 & Ev & E).
    eapply runs_let; [exact G|]. eapply runs_get; [eapply get_mem; eauto|]. eapply runs_get; [eapply get_mem; eauto|].
    eapply runs_get; [eapply get_mem; eauto|]. eapply runs_let; [exact Ew|]. eapply runs_let; [exact Ev|].
    rewrite E. apply runs_ret.
Qed.
Lemma runs_compose m0 dec k st n r data : nth_error m0 i = Some (Buffer p dec) ->
  compose_impl p dec k st n = Ok (r, data) -> r = true /\ runs (pcompose_impl i p k st n) m0 data m0.
Proof.
  intros E1 E. unfold compose_impl, compose_impl_gen in E. apply bind_ok in E as (subbands & Es & E).
  cbv zeta in E. apply bind_ok in E as (dat & Ed & E). injection E as <- <-. split; [reflexivity|].
  unfold compose_partial_gen in Es. apply bind_ok in Es as (stack & Est & Es). apply bind_ok in Es as (dmat & Edm & Es).
  cbv zeta in Es. unfold pcompose_impl. eapply runs_let; [exact Est|]. eapply runs_let; [exact Edm|]. cbv zeta.
  eapply runs_then with (x := subbands).
  2: { rewrite Ed. apply runs_ret. }
  unfold tabulateM in Es. eapply runs_map; [|exact Es]. intros c sub' _ E. cbv beta in E.
  apply bind_ok in E as (sub & E2 & E). apply rd_ok in E2. apply bind_ok in E as (channel & E3 & E).
  unfold compose_channel in E3. cbv zeta in E3, E. apply bind_ok in E3 as (deep & E4 & E3).
  unfold pcompose_channel. eapply runs_then; [eapply runs_copy; eauto|]. cbv zeta.
  eapply runs_get; [eapply get_mem; eauto|]. eapply runs_then.
  - eapply runs_loop_same; [|exact E3]. intros it s s1 _ Eb. cbv beta zeta in Eb |- *.
    apply bind_ok in Eb as (wm & Ew & Eb). eapply runs_let; [exact Ew|]. eapply runs_compose_step; eauto.
  - rewrite E. apply runs_ret.
Qed.
End Two.

Lemma runs_head {X} j (k : params -> nat -> prog T X) m b y m' : nth_error m j = Some b ->
  runs (k (bpar b) (length (bdec b))) m y m' -> runs (Head j k) m y m'.
Proof.
  intros E (n & H). exists (S n). cbn [exec]. unfold head. rewrite (rd_some _ _ _ E). cbn. now rewrite H.
Qed.
Lemma buffer_eta (b : buffer T) : Buffer (bpar b) (bdec b) = b.
Proof. now destruct b. Qed.

Lemma mem_eta m i b : nth_error m i = Some b -> m = upd m i (Buffer (bpar b) (bdec b)).
Proof. intros E. rewrite buffer_eta. symmetry. now apply upd_same. Qed.

Lemma runs_call m c x m' : do_call m c = Ok (x, m') -> runs (prog_of c) m x m'.
Proof.
  destruct c as [i data den|i v data den|i sf|i v sf|i]; cbn [do_call prog_of]; intros E.
  - apply bind_ok in E as (b & Eb & E). apply rd_ok in Eb. apply bind_ok in E as ([ok b'] & Ed & E).
    cbn [fst snd] in E. apply bind_ok in E as (m1 & Em & E). injection E as <- <-. apply wr_ok in Em as (L & ->).
    unfold decompose in Ed. apply bind_ok in Ed as ([ok1 dec'] & Ed & Ee). injection Ee as <- <-.
    eapply runs_head; [exact Eb|]. eapply runs_then; [|apply runs_ret].
    cbn [fst snd]. rewrite (mem_eta m i b Eb) at 1. now apply runs_decompose.
  - apply bind_ok in E as (b & Eb & E). apply rd_ok in Eb. apply bind_ok in E as ([ok b'] & Ed & E).
    cbn [fst snd] in E. apply bind_ok in E as (m1 & Em & E). injection E as <- <-. apply wr_ok in Em as (L & ->).
    eapply runs_head; [exact Eb|]. unfold view_decompose in Ed. apply bind_ok in Ed as (rg & Er & Ed).
    eapply runs_let; [exact Er|]. destruct rg; cbn [negb] in *.
    + apply bind_ok in Ed as (u & Eu & Ed). eapply runs_let; [exact Eu|]. cbv beta. destruct (odd_range v).
      * apply bind_ok in Ed as (ok1 & Eo & Ed). injection Ed as <- <-. eapply runs_let; [exact Eo|].
        rewrite (upd_same m i b Eb). apply runs_ret.
      * apply bind_ok in Ed as ([ok1 dec'] & Ed & Ee). injection Ee as <- <-. eapply runs_then; [|apply runs_ret].
        cbn [fst snd]. rewrite (mem_eta m i b Eb) at 1. now apply runs_decompose.
    + injection Ed as <- <-. rewrite (upd_same m i b Eb). apply runs_ret.
  - apply bind_ok in E as (b & Eb & E). apply rd_ok in Eb. apply bind_ok in E as ([ok out] & Ed & E). injection E as <- <-.
    unfold compose in Ed. apply bind_ok in Ed as (k & Ek & Ed). eapply runs_head; [exact Eb|].
    eapply runs_let; [exact Ek|]. cbn [fst snd]. rewrite <- (buffer_eta b) in Eb.
    destruct (runs_compose i (bpar b) m (bdec b) k 0 (Z.to_nat (signum (bpar b))) ok out Eb Ed) as (-> & Hr).
    eapply runs_then; [exact Hr|]. apply runs_ret.
  - apply bind_ok in E as (b & Eb & E). apply rd_ok in Eb. apply bind_ok in E as ([ok out] & Ed & E). injection E as <- <-.
    unfold view_compose in Ed. apply bind_ok in Ed as (rg & Er & Ed). eapply runs_head; [exact Eb|].
    eapply runs_let; [exact Er|]. destruct rg; cbn [negb fst snd] in *.
    + apply bind_ok in Ed as (k & Ek & Ed). eapply runs_let; [exact Ek|]. cbv beta.
      destruct (vcount v <? 0)%Z; [discriminate|]. destruct ((vstart v <? 0) && (0 <? vcount v))%Z; [discriminate|].
      apply bind_ok in Ed as ([ok1 out1] & Ed & Ee). injection Ee as <- <-. rewrite <- (buffer_eta b) in Eb.
      destruct (runs_compose i (bpar b) m (bdec b) k _ _ ok1 out1 Eb Ed) as (-> & Hr).
      eapply runs_then; [exact Hr|]. apply runs_ret.
    + injection Ed as <- <-. apply runs_ret.
  - apply bind_ok in E as (b & Eb & E). apply rd_ok in Eb. injection E as <- <-. eapply runs_head; [exact Eb|].
    eapply runs_then with (x := bdec b).
    + eapply runs_map with (f := rd (bdec b)); [|apply (rd_all [] (bdec b))].
      intros c ch _ E. apply rd_ok in E. rewrite <- (buffer_eta b) in Eb. eapply runs_copy; eauto.
    + rewrite (buffer_eta b). apply runs_ret.
Qed.
End Calls.
