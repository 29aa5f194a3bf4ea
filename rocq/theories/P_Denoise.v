(** * P_Denoise: the library denoisers. *)
Require Import List Bool Arith ZArith Lia Reals Lra Permutation.
Require Import ZifyBool.
Require Import Verif.M_Base Verif.M_Params Verif.M_Buffer Verif.M_Real Verif.M_Denoise Verif.S_Denoise Verif.S_Buffer.
Require Import Verif.P_Base Verif.P_Api2.
Import ListNotations.
Open Scope nat_scope.

Lemma nth_error_ext_eq {X} (l l' : list X) : length l = length l' ->
  (forall k x y, nth_error l k = Some x -> nth_error l' k = Some y -> x = y) -> l = l'.
Proof.
  revert l'; induction l as [|a l IH]; intros [|b l'] HL H; try discriminate; auto.
  f_equal; [apply (H 0); auto|]. apply IH; [simpl in HL; lia|]. intros k x y Hx Hy. apply (H (S k)); auto.
Qed.
Lemma in_firstn {X} (l : list X) k x : In x (firstn k l) -> In x l.
Proof. intros H. rewrite <- (firstn_skipn k l). apply in_or_app; auto. Qed.

Lemma NoDup_map_inj {X Y} (f : X -> Y) l : (forall a b, In a l -> In b l -> f a = f b -> a = b) ->
  NoDup l -> NoDup (map f l).
Proof.
  induction l as [|x l IH]; intros Hi ND; simpl; constructor; inversion ND; subst.
  - intros H. apply in_map_iff in H as (y & E & Hy). apply H1. rewrite (Hi x y); simpl; auto.
  - apply IH; auto. intros a b Ha Hb. apply Hi; simpl; auto.
Qed.
Ltac samecond :=
  match goal with |- ?c (if ?b1 then _ else _) = ?c (if ?b2 then _ else _) =>
    replace b1 with b2 by lia; reflexivity end.
Lemma mset_ok {T} (m : mat T) i j x : mwf m -> i < rows m -> j < cols m ->
  exists m', mset m i j x = Ok m' /\ mwf m' /\ rows m' = rows m /\ cols m' = cols m /\
    forall a b, mget m' a b = if (a =? i) && (b =? j) then Ok x else mget m a b.
Proof.
  intros W Hi Hj. unfold mset. rewrite guard_true by lia. cbn [bind].
  unfold mwf in W. rewrite wr_lt by (rewrite W; apply idx_lt; auto). cbn [bind].
  eexists. split; [reflexivity|]. unfold mwf. cbn [rows cols elts]. rewrite upd_length.
  split; auto. split; auto. split; auto.
  intros a b. unfold mget. cbn [rows cols elts].
  destruct (Nat.ltb_spec a (rows m)), (Nat.ltb_spec b (cols m)); cbn [andb];
    try (destruct (Nat.eqb_spec a i), (Nat.eqb_spec b j); cbn [andb]; auto; lia).
  destruct (Nat.eqb_spec a i) as [->|Ha], (Nat.eqb_spec b j) as [->|Hb]; cbn [andb].
  - unfold rd. rewrite upd_nth_eq; auto. rewrite W. apply idx_lt; auto.
  - unfold rd. rewrite upd_nth_neq; auto. lia.
  - unfold rd. rewrite upd_nth_neq; auto. nia.
  - unfold rd. rewrite upd_nth_neq; auto. nia.
Qed.

Section D.
Context {T : Type} {A : Arith T} {M : Mag T}.

Lemma mzero_wf r c : mwf (@mzero T A r c).
Proof. unfold mwf, mzero; cbn. apply repeat_length. Qed.
Lemma mzero_get r c i j : i < r -> j < c -> mget (@mzero T A r c) i j = Ok a0.
Proof.
  intros. unfold mget, mzero; cbn [rows cols elts].
  replace ((i <? r) && (j <? c)) with true by lia.
  rewrite (rd_nth _ _ a0) by (rewrite repeat_length; apply idx_lt; auto).
  f_equal. apply nth_repeat.
Qed.
Lemma nth_error_repeat_lt {X} (x : X) n i : i < n -> nth_error (repeat x n) i = Some x.
Proof. revert i; induction n; intros [|i] H; simpl; auto; try lia. apply IHn; lia. Qed.

(** ** C28 *)
Definition thr_val (a b : T) (s : nat) (x : T) : T := if mgt (mabs x) (get_threshold a b s) then x else a0.

Lemma threshold1_ok a b data s : threshold1 a b data s = Ok (map (thr_val a b s) data).
Proof.
  unfold threshold1. set (thr := get_threshold a b s).
  destruct (loop_inv (length data) 0
    (fun i result => let* x := rd data i in if mgt (mabs x) thr then wr result i x else Ok result)
    (fun i res => length res = length data /\ forall k x, nth_error data k = Some x ->
        nth_error res k = Some (if k <? i then thr_val a b s x else a0))
    (repeat a0 (length data))) as (res & -> & HL & HI).
  - rewrite repeat_length. split; auto. intros k x Hk. apply nth_error_repeat_lt.
    apply nth_error_Some. congruence.
  - intros i res Hi (HL & HI). rewrite Nat.add_0_l.
    destruct (nth_error data i) as [x|] eqn:Ex; [|apply nth_error_None in Ex; lia].
    rewrite (rd_some _ _ _ Ex). cbn [bind]. unfold thr_val in *. fold thr.
    destruct (mgt (mabs x) thr) eqn:Eg.
    + rewrite wr_lt by lia. eexists. split; [reflexivity|]. rewrite upd_length. split; auto.
      intros k y Hk. destruct (Nat.eq_dec k i) as [->|Hne].
      * rewrite upd_nth_eq by lia. replace (i <? S i) with true by lia. assert (y = x) by congruence. subst.
        rewrite Eg. reflexivity.
      * rewrite upd_nth_neq by auto. rewrite (HI k y Hk). replace (k <? S i) with (k <? i) by lia. reflexivity.
    + eexists. split; [reflexivity|]. split; auto. intros k y Hk. rewrite (HI k y Hk).
      destruct (Nat.eq_dec k i) as [->|Hne].
      * assert (y = x) by congruence. subst. replace (i <? i) with false by lia. replace (i <? S i) with true by lia.
        rewrite Eg. reflexivity.
      * replace (k <? S i) with (k <? i) by lia. reflexivity.
  - f_equal. apply nth_error_ext_eq; [rewrite map_length; auto|].
    intros k x y Hx Hy. rewrite nth_error_map in Hy.
    destruct (nth_error data k) as [z|] eqn:Ez; [|discriminate]. cbn in Hy. inversion Hy; subst.
    rewrite (HI k z Ez) in Hx. inversion Hx.
    assert (k < length data) by (apply nth_error_Some; congruence).
    replace (k <? length data) with true by lia. reflexivity.
Qed.

Lemma mget_ext (m1 m2 : mat T) : mwf m1 -> mwf m2 -> rows m1 = rows m2 -> cols m1 = cols m2 ->
  (forall i j, i < rows m1 -> j < cols m1 -> mget m1 i j = mget m2 i j) -> m1 = m2.
Proof.
  intros W1 W2 R C H. apply (mat_ext a0); auto. intros i j Hi Hj. specialize (H i j Hi Hj).
  rewrite !(mget_mel a0) in H by (auto; congruence). inversion H; auto.
Qed.

Lemma mget_some (m : mat T) i j : mwf m -> i < rows m -> j < cols m -> exists x, mget m i j = Ok x.
Proof. intros. eexists. apply (mget_mel a0); auto. Qed.

Lemma threshold2_ok a b data s : mwf data ->
  threshold2 a b data s = Ok (Mat (rows data) (cols data) (map (thr_val a b s) (elts data))).
Proof.
  intros W. unfold threshold2. set (thr := get_threshold a b s).
  set (inv := fun (n m : nat) (res : mat T) =>
      mwf res /\ rows res = rows data /\ cols res = cols data /\
      forall k l x, mget data k l = Ok x ->
        mget res k l = Ok (if (k <? n) || ((k =? n) && (l <? m)) then thr_val a b s x else a0)).
  destruct (loop_inv (rows data) 0 (fun i result =>
    loop (cols data) 0 (fun j result =>
      let* x := mget data i j in
      if mgt (mabs x) thr then mset result i j x else Ok result) result)
    (fun i res => inv i 0 res) (mzero (rows data) (cols data))) as (res & -> & W' & R & C & H).
  - split; [apply mzero_wf|]. split; auto. split; auto. intros k l x E.
    apply mget_ok_lt in E as (? & ?). rewrite mzero_get by auto.
    replace ((k <? 0) || (k =? 0) && (l <? 0)) with false by lia. reflexivity.
  - intros i res Hi HI. rewrite Nat.add_0_l.
    destruct (loop_inv (cols data) 0 (fun j result =>
      let* x := mget data i j in
      if mgt (mabs x) thr then mset result i j x else Ok result)
      (fun j res => inv i j res) res) as (res' & -> & HI'); auto.
    + intros j r Hj (W1 & R1 & C1 & H1). rewrite Nat.add_0_l.
      destruct (mget_some data i j W Hi Hj) as (x & Ex). rewrite Ex. cbn [bind].
      destruct (mgt (mabs x) thr) eqn:Eg.
      * destruct (mset_ok r i j x W1) as (r' & -> & W2 & R2 & C2 & H2); try lia.
        eexists. split; [reflexivity|]. split; auto. split; [congruence|]. split; [congruence|].
        intros k l y Ey. rewrite H2.
        destruct (Nat.eqb_spec k i) as [->|], (Nat.eqb_spec l j) as [->|]; cbn [andb].
        -- assert (y = x) by congruence. subst. unfold thr_val. fold thr. rewrite Eg.
           replace (_ || _) with true by lia. reflexivity.
        -- rewrite (H1 _ _ _ Ey). samecond.
        -- rewrite (H1 _ _ _ Ey). samecond.
        -- rewrite (H1 _ _ _ Ey). samecond.
      * eexists. split; [reflexivity|]. split; auto. split; auto. split; auto.
        intros k l y Ey. rewrite (H1 _ _ _ Ey).
        destruct (Nat.eq_dec k i) as [->|]; [destruct (Nat.eq_dec l j) as [->|]|].
        -- assert (y = x) by congruence. subst. unfold thr_val. fold thr. rewrite Eg. destruct (_ || _), (_ || _); reflexivity.
        -- samecond.
        -- samecond.
    + exists res'. split; auto. destruct HI' as (W1 & R1 & C1 & H1). split; auto. split; auto. split; auto.
      intros k l x E. rewrite (H1 _ _ _ E). apply mget_ok_lt in E as (? & ?). samecond.
  - f_equal.
    assert (Wm : mwf (Mat (rows data) (cols data) (map (thr_val a b s) (elts data)))).
    { unfold mwf in *; cbn [rows cols elts]. rewrite map_length. auto. }
    apply mget_ext; auto. intros i j Hi Hj. rewrite R in Hi. rewrite C in Hj.
    destruct (mget_some data i j W Hi Hj) as (x & Ex). rewrite (H _ _ _ Ex).
    replace (_ || _) with true by lia. symmetry.
    unfold mget in *; cbn [rows cols elts]. replace ((i <? rows data) && (j <? cols data)) with true in * by lia.
    apply rd_ok in Ex. apply rd_some. rewrite nth_error_map, Ex. reflexivity.
Qed.

Lemma thr_val_idem a b s x : thr_val a b s (thr_val a b s x) = thr_val a b s x.
Proof.
  unfold thr_val at 2 3. destruct (mgt (mabs x) (get_threshold a b s)) eqn:E.
  - unfold thr_val. rewrite E. reflexivity.
  - unfold thr_val. destruct (mgt (mabs a0) _); reflexivity.
Qed.

Lemma threshold_keeps a b : keeps_shape (threshold_denoiser a b).
Proof.
  split; cbn [den1 den2 threshold_denoiser].
  - intros l s. rewrite threshold1_ok. cbn. apply map_length.
  - intros m s W. rewrite threshold2_ok by auto. cbn [total_of]. unfold sized, mwf in *; cbn [rows cols elts].
    rewrite map_length. auto.
Qed.

Lemma threshold_semantics1 a b data s :
  exists out, threshold1 a b data s = Ok out /\ length out = length data /\
    (forall i x, nth_error data i = Some x ->
       nth_error out i = Some (if mgt (mabs x) (get_threshold a b s) then x else a0)) /\
    threshold1 a b out s = Ok out.
Proof.
  eexists. split; [apply threshold1_ok|]. split; [apply map_length|]. split.
  - intros i x E. rewrite nth_error_map, E. reflexivity.
  - rewrite threshold1_ok, map_map. f_equal. apply map_ext. apply thr_val_idem.
Qed.
Lemma threshold_semantics2 a b data s : mwf data ->
  exists out, threshold2 a b data s = Ok out /\ sized (rows data) (cols data) out /\
    (forall i j x, mget data i j = Ok x ->
       mget out i j = Ok (if mgt (mabs x) (get_threshold a b s) then x else a0)) /\
    threshold2 a b out s = Ok out.
Proof.
  intros W. eexists. split; [apply threshold2_ok; auto|].
  assert (Wm : mwf (Mat (rows data) (cols data) (map (thr_val a b s) (elts data)))).
  { unfold mwf in *; cbn [rows cols elts]. rewrite map_length. auto. }
  split; [split; auto|]. split.
  - intros i j x E. unfold mget in *. cbn [rows cols elts].
    destruct ((i <? rows data) && (j <? cols data)); [|discriminate].
    apply rd_ok in E. apply rd_some. rewrite nth_error_map, E. reflexivity.
  - rewrite threshold2_ok by auto. cbn [rows cols elts]. rewrite map_map. do 2 f_equal. apply map_ext. apply thr_val_idem.
Qed.

Lemma threshold_in_decompose p (b b1 : buffer T) data ta tb :
  accepted p -> reachable p b ->
  (1 <= signum p)%Z -> Z.of_nat (length data) = signum p -> Forall (shaped p) data ->
  exists b1 b0, decompose b data (threshold_denoiser ta tb) = Ok (true, b1) /\
    decompose b data null_denoiser = Ok (true, b0) /\
  forall c ch1 ch0, nth_error (bdec b1) c = Some ch1 -> nth_error (bdec b0) c = Some ch0 ->
    nth_error ch1 (nsteps p * bands p) = nth_error ch0 (nsteps p * bands p) /\
    forall s i d1 d0, s < nsteps p -> i < bands p ->
      nth_error ch1 (s * bands p + i) = Some d1 -> nth_error ch0 (s * bands p + i) = Some d0 ->
      elts d1 = map (fun x => if mgt (mabs x) (get_threshold ta tb s) then x else a0) (elts d0).
Proof.
  intros HA HR Hs HL HS.
  destruct (decompose_compose_safe' p b data (threshold_denoiser ta tb) HA HR (threshold_keeps ta tb) Hs HL HS)
    as (b1' & HD & _).
  destruct (denoiser_effect p b b1' data _ HA HR Hs HL HS HD) as (b0 & HD0 & HLen & HE).
  exists b1', b0. split; auto. split; auto. intros c ch1 ch0 E1 E0.
  destruct (HE c ch1 ch0 E1 E0) as (_ & (a & Ha1 & Ha0) & HB). split; [congruence|].
  intros s i d1 d0 Hsn Hi Ed1 Ed0. destruct (HB s i Hsn Hi) as (d & Hd0 & Hd1).
  assert (d = d0) by congruence. subst d. rewrite Ed1 in Hd1. inversion Hd1; subst d1.
  unfold denoised. destruct (is_1d p).
  - cbn [den1 threshold_denoiser]. rewrite threshold1_ok. cbn [total_of]. reflexivity.
  - cbn [den2 threshold_denoiser].
    assert (W : mwf d0).
    { destruct (decompose_compose_safe' p b data null_denoiser HA HR) as (b0' & HD0' & _ & _ & HLay & _); auto.
      { split; [reflexivity|]. intros m' s' W'. repeat split; auto. }
      assert (b0' = b0) by congruence. subst b0'. rewrite Forall_forall in HLay.
      destruct (HLay ch0) as (_ & HLs & _); [eapply nth_error_In; eauto|].
      apply (HLs s i d0); auto. }
    rewrite threshold2_ok by auto. reflexivity.
Qed.

(** ** C29 *)
Lemma ne_split {K} (ok : T -> Prop) (val : K -> T) (pos : list K) ne k :
  nth_element_on ok ne -> (forall p, In p pos -> ok (mabs (val p))) -> NoDup pos -> k <= length pos ->
  let sorted := ne (map (fun p => (mabs (val p), p)) pos) k in
  let keep := map snd (firstn k sorted) in
  length keep = k /\ NoDup keep /\ incl keep pos /\
  (forall c, c < k -> exists p, nth_error sorted c = Some (mabs (val p), p) /\ nth_error keep c = Some p) /\
  (forall p q, In p keep -> In q pos -> ~ In q keep -> mgt (mabs (val q)) (mabs (val p)) = false).
Proof.
  intros HC Hok ND Hk sorted keep. set (l := map (fun p => (mabs (val p), p)) pos) in *.
  assert (HLl : length l = length pos) by apply map_length.
  destruct (HC l k) as (HP & HO); [lia| |].
  { apply Forall_forall. intros e He. apply in_map_iff in He as (p & <- & Hp). cbn [fst]. auto. }
  fold sorted in HP, HO.
  assert (HLs : length sorted = length pos) by (rewrite <- HLl; symmetry; apply Permutation_length; auto).
  assert (HE : forall e, In e sorted -> exists p, In p pos /\ e = (mabs (val p), p)).
  { intros e He. apply (Permutation_in (l' := l)) in He; [|apply Permutation_sym; auto].
    apply in_map_iff in He as (p & <- & Hp). eauto. }
  assert (ND2 : NoDup (map snd sorted)).
  { apply (Permutation_NoDup (l := map snd l)).
    - apply Permutation_map. auto.
    - unfold l. rewrite map_map. cbn [snd]. rewrite map_id. auto. }
  assert (Hfs : forall c, c < k -> nth_error (firstn k sorted) c = nth_error sorted c).
  { intros c Hc. rewrite <- (firstn_skipn k sorted) at 2. rewrite nth_error_app1; auto.
    rewrite firstn_length. lia. }
  split; [unfold keep; rewrite map_length, firstn_length; lia|].
  split.
  { unfold keep. rewrite <- firstn_map. rewrite <- (firstn_skipn k (map snd sorted)) in ND2.
    revert ND2. generalize (firstn k (map snd sorted)), (skipn k (map snd sorted)). clear.
    induction l as [|x l IH]; intros l2 ND; [constructor|]. inversion ND; subst. constructor.
    - intros Hx. apply H1. apply in_or_app; auto.
    - eapply IH; eauto. }
  split.
  { intros p Hp. unfold keep in Hp. apply in_map_iff in Hp as (e & <- & He).
    apply (in_firstn) in He. destruct (HE e He) as (p & Hp & ->). auto. }
  split.
  { intros c Hc. destruct (nth_error sorted c) as [e|] eqn:Ee; [|apply nth_error_None in Ee; lia].
    destruct (HE e) as (p & Hp & ->); [eapply nth_error_In; eauto|]. exists p. split; auto.
    unfold keep. rewrite nth_error_map, Hfs, Ee by auto. reflexivity. }
  intros p q Hp Hq Hnq. unfold keep in Hp. apply in_map_iff in Hp as (e & <- & He).
  apply In_nth_error in He as (i & Hi). assert (Hik : i < k).
  { assert (i < length (firstn k sorted)) by (apply nth_error_Some; congruence). rewrite firstn_length in H. lia. }
  rewrite Hfs in Hi by auto.
  destruct (HE e) as (p & Hp & ->); [eapply nth_error_In; eauto|]. cbn [snd].
  assert (Hql : In (mabs (val q), q) sorted).
  { apply (Permutation_in (l := l)); auto. unfold l. apply in_map_iff. eauto. }
  apply In_nth_error in Hql as (j & Hj).
  destruct (Nat.lt_ge_cases j k) as [Hjk|Hjk].
  - exfalso. apply Hnq. unfold keep. apply in_map_iff. exists (mabs (val q), q). split; auto.
    apply (nth_error_In _ j). rewrite Hfs; auto.
  - exact (HO i j _ _ Hik Hjk Hi Hj).
Qed.

Lemma kept_le n drop : n - (if n =? 0 then drop else Nat.min drop (n - 1)) <= n.
Proof. lia. Qed.

Lemma existsb_snoc i l (x : nat) : existsb (Nat.eqb i) (l ++ [x]) = existsb (Nat.eqb i) l || (i =? x).
Proof. rewrite existsb_app. cbn. rewrite orb_false_r. reflexivity. Qed.

Lemma firstn_snoc {X} (l : list X) c x : nth_error l c = Some x -> firstn (S c) l = firstn c l ++ [x].
Proof.
  revert c; induction l as [|y l IH]; intros [|c] H; simpl in *; try discriminate; try congruence.
  f_equal. apply IH; auto.
Qed.

Theorem simple1_on ok ne level (data : list T) drop :
  nth_element_on ok ne -> Forall (fun x => ok (mabs x)) data -> mtrunc (length data) level = Ok drop ->
  exists out keep, simple1 ne level data = Ok out /\
    NoDup keep /\ Forall (fun i => i < length data) keep /\
    length keep = length data - Nat.min drop (length data - 1) /\
    keeps_only1 keep data out /\
    forall i j x y, In i keep -> ~ In j keep -> nth_error data i = Some x -> nth_error data j = Some y ->
      mgt (mabs y) (mabs x) = false.
Proof.
  intros HC Hok HT. unfold simple1, slice_index. set (n := length data) in *.
  rewrite (tabulateM_ok n _ (fun i => (mabs (nth i data a0), i))).
  2:{ intros i Hi. rewrite (rd_nth _ _ a0) by auto. reflexivity. }
  cbn [bind]. rewrite HT. cbn [bind].
  set (k := n - (if n =? 0 then drop else Nat.min drop (n - 1))).
  rewrite guard_true by (unfold k; lia). cbn [bind].
  assert (Ek : k = n - Nat.min drop (n - 1)) by (unfold k; destruct (Nat.eqb_spec n 0); lia).
  destruct (ne_split ok (fun i => nth i data a0) (seq 0 n) ne k HC) as (HL & ND & HI & HN & HO).
  { intros i Hi. apply in_seq in Hi. rewrite Forall_forall in Hok. apply Hok. apply nth_In. unfold n in *. lia. }
  { apply seq_NoDup. }
  { rewrite seq_length. unfold k. lia. }
  set (sorted := ne _ k) in *. set (keep := map snd (firstn k sorted)) in *.
  destruct (loop_inv k 0 (fun c result =>
      let* e := rd sorted c in let* x := rd data (snd e) in wr result (snd e) x)
    (fun c res => keeps_only1 (firstn c keep) data res) (repeat a0 n)) as (out & E & HK).
  - split; [apply repeat_length|]. intros i x Hx. cbn [firstn existsb].
    apply nth_error_repeat_lt. apply nth_error_Some. unfold n. congruence.
  - intros c res Hc (HLr & HR). rewrite Nat.add_0_l.
    destruct (HN c Hc) as (p & Hs & Hkp). rewrite (rd_some _ _ _ Hs). cbn [bind snd].
    assert (Hp : p < n).
    { assert (In p (seq 0 n)) by (apply HI; eapply nth_error_In; eauto). apply in_seq in H; lia. }
    rewrite (rd_nth _ _ a0) by auto. cbn [bind]. rewrite wr_lt by (unfold n in *; lia).
    eexists. split; [reflexivity|]. split; [rewrite upd_length; auto|].
    intros i x Hx. rewrite (firstn_snoc keep c p) by auto. rewrite existsb_snoc.
    destruct (Nat.eqb_spec i p) as [->|Hne].
    + rewrite orb_true_r. rewrite upd_nth_eq by (unfold n in *; lia). f_equal. apply nth_error_nth; auto.
    + rewrite orb_false_r. rewrite upd_nth_neq by auto. apply HR; auto.
  - exists out, keep. split; [exact E|]. split; auto. split.
    { apply Forall_forall. intros i Hi. apply HI in Hi. apply in_seq in Hi. lia. }
    split; [congruence|]. split.
    { rewrite firstn_all2 in HK by lia. auto. }
    intros i j x y Hi Hj Hx Hy.
    rewrite <- (nth_error_nth _ _ a0 Hx), <- (nth_error_nth _ _ a0 Hy). apply HO; auto.
    apply in_seq. assert (j < n) by (apply nth_error_Some; congruence). lia.
Qed.

Lemma in_pos_snoc i j l x : in_pos i j (l ++ [x]) = in_pos i j l || ((i =? fst x) && (j =? snd x)).
Proof. unfold in_pos. rewrite existsb_app. cbn. rewrite orb_false_r. reflexivity. Qed.

(** the tuple vector of the 2D denoiser, column by column *)
Definition pos2 (r q : nat) : nat * nat := (q mod r, q / r).
Definition tup2 (data : mat T) (q : nat) : T * (nat * nat) :=
  (mabs (mel a0 data (q mod rows data) (q / rows data)), pos2 (rows data) q).

Lemma values_ok (data : mat T) : mwf data ->
  exists v, loop (rows data) 0 (fun i values =>
      loop (cols data) 0 (fun j values =>
        let* x := mget data i j in
        wr values (i + j * rows data) (Some (mabs x, (i, j)))) values) (repeat None (rows data * cols data)) = Ok v /\
    mapM (fun o => match o with Some v => Ok v | None => UB end) v = Ok (map (tup2 data) (seq 0 (rows data * cols data))).
Proof.
  intros W. set (r := rows data). set (w := cols data). set (n := r * w).
  set (done := fun (a b q : nat) => (q mod r <? a) || ((q mod r =? a) && (q / r <? b))).
  set (inv := fun (a b : nat) (v : list (option (T * (nat * nat)))) =>
     length v = n /\ forall q, q < n -> nth_error v q = Some (if done a b q then Some (tup2 data q) else None)).
  destruct (loop_inv r 0 (fun i values =>
      loop w 0 (fun j values =>
        let* x := mget data i j in
        wr values (i + j * r) (Some (mabs x, (i, j)))) values) (fun a v => inv a 0 v) (repeat None n)) as (v & E & HL & HI).
  - split; [apply repeat_length|]. intros q Hq. rewrite nth_error_repeat_lt by auto. unfold done.
    replace (_ || _) with false by lia. reflexivity.
  - intros i v Hi HI. rewrite Nat.add_0_l.
    destruct (loop_inv w 0 (fun j values =>
        let* x := mget data i j in
        wr values (i + j * r) (Some (mabs x, (i, j)))) (fun b v => inv i b v) v) as (v' & E & HI'); auto.
    + intros j v1 Hj (HL1 & H1). rewrite Nat.add_0_l. rewrite (mget_mel a0) by auto. cbn [bind].
      assert (Hq : i + j * r < n) by (unfold n; nia).
      assert (Em : (i + j * r) mod r = i) by (rewrite Nat.mod_add by lia; apply Nat.mod_small; auto).
      assert (Ed : (i + j * r) / r = j) by (rewrite Nat.div_add by lia; rewrite Nat.div_small by auto; lia).
      rewrite wr_lt by lia. eexists. split; [reflexivity|]. split; [rewrite upd_length; auto|].
      intros q Hqn. destruct (Nat.eq_dec q (i + j * r)) as [->|Hne].
      * rewrite upd_nth_eq by lia. unfold done, tup2, pos2. fold r. rewrite Em, Ed.
        replace (_ || _) with true by lia. reflexivity.
      * rewrite upd_nth_neq by auto. rewrite H1 by auto. 
        assert (~ (q mod r = i /\ q / r = j)).
        { intros (E1 & E2). apply Hne. pose proof (Nat.div_mod q r ltac:(lia)). nia. }
        unfold done. samecond.
    + exists v'. split; auto. destruct HI' as (HL1 & H1). split; auto. intros q Hq. rewrite H1 by auto.
      assert (q / r < w) by (apply Nat.div_lt_upper_bound; unfold n in Hq; lia).
      unfold done. samecond.
  - exists v. split; auto.
    assert (Ev : v = map (fun q => Some (tup2 data q)) (seq 0 n)).
    { apply nth_error_ext_eq; [rewrite map_length, seq_length; auto|].
      intros q x y Hx Hy. assert (Hq : q < n) by (rewrite <- HL; apply nth_error_Some; congruence).
      rewrite nth_error_map_seq in Hy by auto. rewrite HI in Hx by auto. unfold done in Hx.
      assert (q mod r < r) by (apply Nat.mod_upper_bound; unfold n in Hq; lia).
      replace (_ || _) with true in Hx by lia. congruence. }
    rewrite Ev. clear. induction (seq 0 n) as [|q l IH]; cbn [map mapM bind]; [reflexivity|].
    rewrite IH. reflexivity.
Qed.

Theorem simple2_on ok ne level (data : mat T) drop :
  mwf data -> nth_element_on ok ne -> Forall (fun x => ok (mabs x)) (elts data) -> mtrunc (rows data * cols data) level = Ok drop ->
  exists out keep, simple2 ne level data = Ok out /\
    NoDup keep /\ Forall (fun p => fst p < rows data /\ snd p < cols data) keep /\
    length keep = rows data * cols data - Nat.min drop (rows data * cols data - 1) /\
    keeps_only2 keep data out /\
    forall i j i' j' x y, In (i, j) keep -> ~ In (i', j') keep -> mget data i j = Ok x -> mget data i' j' = Ok y ->
      mgt (mabs y) (mabs x) = false.
Proof.
  intros W HC Hok HT. unfold simple2. destruct (values_ok data W) as (v & Ev & Em).
  rewrite Ev. cbn [bind]. rewrite Em. cbn [bind]. clear v Ev Em.
  set (r := rows data) in *. set (w := cols data) in *. set (n := r * w) in *.
  unfold slice_index. rewrite HT. cbn [bind].
  set (k := n - (if n =? 0 then drop else Nat.min drop (n - 1))).
  rewrite guard_true by (unfold k; lia). cbn [bind].
  assert (Ek : k = n - Nat.min drop (n - 1)) by (unfold k; destruct (Nat.eqb_spec n 0); lia).
  set (val := fun p : nat * nat => mel a0 data (fst p) (snd p)).
  set (pos := map (pos2 r) (seq 0 n)).
  assert (NDp : NoDup pos).
  { unfold pos. apply NoDup_map_inj; [|apply seq_NoDup].
    intros a b Ha Hb E. apply in_seq in Ha, Hb. unfold pos2 in E. inversion E.
    destruct (Nat.eq_dec r 0) as [E0|E0]; [unfold n in *; lia|].
    pose proof (Nat.div_mod a r E0). pose proof (Nat.div_mod b r E0). congruence. }
  assert (Epos : forall i j, In (i, j) pos <-> i < r /\ j < w).
  { intros i j. unfold pos. rewrite in_map_iff. split.
    - intros (q & E & Hq). apply in_seq in Hq. unfold pos2 in E. inversion E.
      split; [apply Nat.mod_upper_bound|apply Nat.div_lt_upper_bound]; unfold n in *; lia.
    - intros (Hi & Hj). exists (i + j * r). split.
      + unfold pos2. rewrite Nat.mod_add, Nat.mod_small, Nat.div_add, Nat.div_small by lia. reflexivity.
      + apply in_seq. unfold n. nia. }
  assert (El : map (tup2 data) (seq 0 n) = map (fun p => (mabs (val p), p)) pos).
  { unfold pos. rewrite map_map. reflexivity. }
  rewrite El.
  destruct (ne_split ok val pos ne k HC) as (HL & ND & HI & HN & HO).
  { intros [i j] Hp. apply Epos in Hp as (Hi & Hj). rewrite Forall_forall in Hok. apply Hok. unfold val, mel. cbn [fst snd].
    apply nth_In. unfold mwf in W. fold r w in W. rewrite W. fold w. nia. }
  { exact NDp. }
  { unfold pos. rewrite map_length, seq_length. unfold k. lia. }
  set (sorted := ne _ k) in *. set (keep := map snd (firstn k sorted)) in *.
  destruct (loop_inv k 0 (fun c result =>
      let* e := rd sorted c in let '(_, (i, j)) := e in let* x := mget data i j in mset result i j x)
    (fun c res => keeps_only2 (firstn c keep) data res) (mzero r w)) as (out & E & HK).
  - split; [apply mzero_wf|]. split; auto. split; auto. intros i j x Hx. cbn [firstn existsb in_pos].
    apply mget_ok_lt in Hx as (? & ?). apply mzero_get; auto.
  - intros c res Hc (Wr & Rr & Cr & HR). rewrite Nat.add_0_l.
    destruct (HN c Hc) as ([i j] & Hs & Hkp). rewrite (rd_some _ _ _ Hs). cbn [bind].
    assert (Hp : i < r /\ j < w).
    { apply Epos, HI. eapply nth_error_In; eauto. }
    rewrite (mget_mel a0) by (auto; apply Hp). cbn [bind].
    destruct (mset_ok res i j (mel a0 data i j) Wr) as (res' & -> & W' & R' & C' & H'); [rewrite Rr; apply Hp|rewrite Cr; apply Hp|].
    eexists. split; [reflexivity|]. split; [exact W'|]. split; [congruence|]. split; [congruence|].
    intros i' j' x Hx. rewrite (firstn_snoc keep c (i, j)) by auto. rewrite in_pos_snoc. cbn [fst snd].
    rewrite H'. destruct ((i' =? i) && (j' =? j)) eqn:Eb.
    + rewrite orb_true_r. assert (i' = i /\ j' = j) as (-> & ->) by lia.
      rewrite (mget_mel a0) in Hx by (auto; apply Hp). congruence.
    + rewrite orb_false_r. apply HR; auto.
  - exists out, keep. split; [exact E|]. split; auto. split.
    { apply Forall_forall. intros [i j] Hi. apply Epos, HI. auto. }
    split; [congruence|]. split.
    { rewrite firstn_all2 in HK by lia. auto. }
    intros i j i' j' x y Hi Hj Hx Hy.
    pose proof (mget_ok_lt _ _ _ _ Hx) as (? & ?). pose proof (mget_ok_lt _ _ _ _ Hy) as (? & ?).
    rewrite (mget_mel a0) in Hx, Hy by auto. inversion Hx; inversion Hy; subst.
    apply (HO (i, j) (i', j')); auto. apply Epos; auto.
Qed.

Lemma contract_on {K} (ne : list (T * K) -> nat -> list (T * K)) : nth_element_contract ne -> nth_element_on (fun _ => True) ne.
Proof. intros H l k Hk _. apply H; auto. Qed.
Theorem simple1_ok ne level (data : list T) drop :
  nth_element_contract ne -> mtrunc (length data) level = Ok drop ->
  exists out keep, simple1 ne level data = Ok out /\
    NoDup keep /\ Forall (fun i => i < length data) keep /\
    length keep = length data - Nat.min drop (length data - 1) /\
    keeps_only1 keep data out /\
    forall i j x y, In i keep -> ~ In j keep -> nth_error data i = Some x -> nth_error data j = Some y ->
      mgt (mabs y) (mabs x) = false.
Proof. intros HC. apply (simple1_on (fun _ => True)); [apply contract_on; auto|]. apply Forall_forall. auto. Qed.
Theorem simple2_ok ne level (data : mat T) drop :
  mwf data -> nth_element_contract ne -> mtrunc (rows data * cols data) level = Ok drop ->
  exists out keep, simple2 ne level data = Ok out /\
    NoDup keep /\ Forall (fun p => fst p < rows data /\ snd p < cols data) keep /\
    length keep = rows data * cols data - Nat.min drop (rows data * cols data - 1) /\
    keeps_only2 keep data out /\
    forall i j i' j' x y, In (i, j) keep -> ~ In (i', j') keep -> mget data i j = Ok x -> mget data i' j' = Ok y ->
      mgt (mabs y) (mabs x) = false.
Proof. intros W HC. apply (simple2_on (fun _ => True)); auto; [apply contract_on; auto|]. apply Forall_forall. auto. Qed.

(** no value dropped *)
Lemma keep_all1 keep (data out : list T) : NoDup keep -> Forall (fun i => i < length data) keep ->
  length keep = length data -> keeps_only1 keep data out -> out = data.
Proof.
  intros ND HF HL (HLo & HK). apply nth_error_ext_eq; auto. intros i x y Hx Hy.
  rewrite (HK i y Hy) in Hx.
  assert (Hi : In i keep).
  { assert (HP : Permutation keep (seq 0 (length data))).
    { apply NoDup_Permutation_bis; auto.
      - rewrite seq_length. lia.
      - intros k Hk. rewrite Forall_forall in HF. apply in_seq. specialize (HF k Hk). lia. }
    apply (Permutation_in (l := seq 0 (length data))); [apply Permutation_sym; auto|].
    apply in_seq. assert (i < length data) by (apply nth_error_Some; congruence). lia. }
  replace (existsb (Nat.eqb i) keep) with true in Hx; [congruence|].
  symmetry. apply existsb_exists. exists i. split; auto. apply Nat.eqb_refl.
Qed.

Lemma keep_all2 keep (data out : mat T) : mwf data -> NoDup keep ->
  Forall (fun p => fst p < rows data /\ snd p < cols data) keep ->
  length keep = rows data * cols data -> keeps_only2 keep data out -> out = data.
Proof.
  intros W ND HF HL (Wo & R & C & HK). apply mget_ext; auto. intros i j Hi Hj. rewrite R in Hi. rewrite C in Hj.
  destruct (mget_some data i j W Hi Hj) as (x & Ex). rewrite (HK _ _ _ Ex).
  assert (Hin : In (i, j) keep).
  { set (all := list_prod (seq 0 (rows data)) (seq 0 (cols data))).
    assert (HP : Permutation keep all).
    { apply NoDup_Permutation_bis; auto.
      - unfold all. rewrite prod_length, !seq_length. lia.
      - intros [a b] Hk. rewrite Forall_forall in HF. destruct (HF _ Hk). unfold all. apply in_prod; apply in_seq; cbn in *; lia. }
    apply (Permutation_in (l := all)); [apply Permutation_sym; auto|]. unfold all. apply in_prod; apply in_seq; lia. }
  replace (in_pos i j keep) with true; [congruence|].
  symmetry. apply existsb_exists. exists (i, j). split; auto. cbn. rewrite !Nat.eqb_refl. reflexivity.
Qed.

Lemma simple_level0 ne1 ne2 level : nth_element_contract ne1 -> nth_element_contract ne2 ->
  (forall data : list T, mtrunc (length data) level = Ok 0 -> simple1 ne1 level data = Ok data) /\
  (forall data : mat T, mwf data -> mtrunc (rows data * cols data) level = Ok 0 -> simple2 ne2 level data = Ok data).
Proof.
  intros H1 H2. split.
  - intros data HT. destruct (simple1_ok ne1 level data 0 H1 HT) as (out & keep & E & ND & HF & HL & HK & _).
    rewrite E. f_equal. apply (keep_all1 keep); auto. lia.
  - intros data W HT. destruct (simple2_ok ne2 level data 0 W H2 HT) as (out & keep & E & ND & HF & HL & HK & _).
    rewrite E. f_equal. apply (keep_all2 keep); auto. lia.
Qed.

Lemma simple_keeps ne1 ne2 level : nth_element_contract ne1 -> nth_element_contract ne2 ->
  (forall n, exists drop, mtrunc n level = Ok drop) -> keeps_shape (simple_denoiser ne1 ne2 level).
Proof.
  intros H1 H2 HT. split; cbn [den1 den2 simple_denoiser].
  - intros l s. destruct (HT (length l)) as (d & Hd).
    destruct (simple1_ok ne1 level l d H1 Hd) as (out & keep & E & _ & _ & _ & (HL & _) & _).
    rewrite E. auto.
  - intros m s W. destruct (HT (rows m * cols m)) as (d & Hd).
    destruct (simple2_ok ne2 level m d W H2 Hd) as (out & keep & E & _ & _ & _ & (W' & R & C & _) & _).
    rewrite E. cbn. split; auto.
Qed.
End D.

(** ** exact reals *)
Local Existing Instance exactR.
Open Scope R_scope.
Lemma real_trunc (n : nat) (level : R) : 0 <= level <= 1 ->
  exists drop, mtrunc n level = Ok drop /\ (drop <= n)%nat /\ INR drop <= INR n * level < INR drop + 1.
Proof.
  intros Hl. cbn [mtrunc realMag]. pose proof (pos_INR n) as Hn.
  destruct (Rle_dec 0 (INR n * level)) as [H0|H0]; [|exfalso; apply H0; apply Rmult_le_pos; lra].
  eexists. split; [reflexivity|].
  destruct (base_Int_part (INR n * level)) as (H1 & H2).
  set (z := Int_part (INR n * level)) in *.
  assert (Hz : (0 <= z)%Z).
  { apply Z.lt_succ_r, lt_IZR. unfold Z.succ. rewrite plus_IZR. lra. }
  assert (E : INR (Z.to_nat z) = IZR z) by (rewrite INR_IZR_INZ, Z2Nat.id by auto; reflexivity).
  rewrite E. split.
  - apply INR_le. rewrite E. nra.
  - lra.
Qed.

Lemma real_gt (x y : R) : mgt x y = false -> x <= y.
Proof. cbn. destruct (Rlt_dec y x); [discriminate|]. intros _. lra. Qed.

Lemma real_level1 n : mtrunc n 1 = Ok n.
Proof.
  destruct (real_trunc n 1) as (d & E & _ & H); [lra|]. rewrite E. f_equal.
  rewrite Rmult_1_r in H. destruct H as (H1 & H2). apply INR_le in H1. rewrite <- S_INR in H2. apply INR_lt in H2. lia.
Qed.
Lemma real_level0 n : mtrunc n 0 = Ok 0%nat.
Proof.
  destruct (real_trunc n 0) as (d & E & _ & H); [lra|]. rewrite E. f_equal.
  rewrite Rmult_0_r in H. destruct H as (H1 & _). change 0 with (INR 0) in H1. apply INR_le in H1. lia.
Qed.

Lemma level1_survivor1 ne (data : list R) : nth_element_contract ne -> (exists x, In x data /\ x <> 0) ->
  exists out x, simple1 ne 1 data = Ok out /\ In x out /\ x <> 0 /\ forall y, In y data -> Rabs y <= Rabs x.
Proof.
  intros HC (x0 & Hx0 & Hnz).
  destruct (simple1_ok ne 1 data (length data) HC (real_level1 _)) as (out & keep & E & ND & HF & HL & (HLo & HK) & HO).
  assert (Hne : (1 <= length data)%nat) by (destruct data; [destruct Hx0|simpl; lia]).
  assert (HL1 : length keep = 1%nat) by lia.
  destruct keep as [|i [|]]; try discriminate.
  inversion HF; subst.
  destruct (nth_error data i) as [x|] eqn:Ex; [|apply nth_error_None in Ex; lia].
  exists out, x. split; auto.
  assert (Hmax : forall y, In y data -> Rabs y <= Rabs x).
  { intros y Hy. apply In_nth_error in Hy as (j & Hj).
    destruct (Nat.eq_dec j i) as [->|Hji]; [assert (y = x) by congruence; subst; lra|].
    apply real_gt. apply (HO i j); auto; simpl; [auto|]. intros [|[]]; congruence. }
  split; [|split; auto].
  - apply (nth_error_In _ i). rewrite (HK i x Ex). cbn. rewrite Nat.eqb_refl. reflexivity.
  - intros ->. specialize (Hmax x0 Hx0). rewrite Rabs_R0 in Hmax.
    assert (0 < Rabs x0) by (apply Rabs_pos_lt; auto). lra.
Qed.

Lemma threshold_real1 a b (data : list R) s :
  exists out, threshold1 a b data s = Ok out /\ length out = length data /\
    (forall i x, nth_error data i = Some x -> exists y, nth_error out i = Some y /\
       (a * INR s + b < Rabs x -> y = x) /\ (Rabs x <= a * INR s + b -> y = 0)) /\
    threshold1 a b out s = Ok out.
Proof.
  destruct (threshold_semantics1 a b data s) as (out & E & HL & H & HI). exists out.
  split; [exact E|]. split; [exact HL|]. split; [|exact HI].
  intros i x Hx. eexists. split; [apply H; eauto|]. cbn [mgt mabs realMag get_threshold].
  unfold get_threshold; cbn. destruct (Rlt_dec (a * INR s + b) (Rabs x)); split; intros; auto; lra.
Qed.
Lemma threshold_real2 a b (data : mat R) s : mwf data ->
  exists out, threshold2 a b data s = Ok out /\ sized (rows data) (cols data) out /\
    (forall i j x, mget data i j = Ok x -> exists y, mget out i j = Ok y /\
       (a * INR s + b < Rabs x -> y = x) /\ (Rabs x <= a * INR s + b -> y = 0)) /\
    threshold2 a b out s = Ok out.
Proof.
  intros W. destruct (threshold_semantics2 a b data s W) as (out & E & HL & H & HI). exists out.
  split; [exact E|]. split; [exact HL|]. split; [|exact HI].
  intros i j x Hx. eexists. split; [apply H; eauto|].
  unfold get_threshold; cbn. destruct (Rlt_dec (a * INR s + b) (Rabs x)); split; intros; auto; lra.
Qed.

Lemma simple_real1 ne level (data : list R) :
  nth_element_contract ne -> 0 <= level <= 1 ->
  exists out keep drop, simple1 ne level data = Ok out /\
    INR drop <= INR (length data) * level < INR drop + 1 /\
    NoDup keep /\ Forall (fun i => i < length data)%nat keep /\
    length keep = (length data - Nat.min drop (length data - 1))%nat /\
    keeps_only1 keep data out /\
    forall i j x y, In i keep -> ~ In j keep -> nth_error data i = Some x -> nth_error data j = Some y ->
      Rabs y <= Rabs x.
Proof.
  intros HC Hl. destruct (real_trunc (length data) level Hl) as (drop & Ht & _ & HB).
  destruct (simple1_ok ne level data drop HC Ht) as (out & keep & E & ND & HF & HL & HK & HO).
  exists out, keep, drop. do 6 (split; auto). intros. apply real_gt. eapply HO; eauto.
Qed.
Lemma simple_real2 ne level (data : mat R) :
  mwf data -> nth_element_contract ne -> 0 <= level <= 1 ->
  exists out keep drop, simple2 ne level data = Ok out /\
    INR drop <= INR (rows data * cols data) * level < INR drop + 1 /\
    NoDup keep /\ Forall (fun p => fst p < rows data /\ snd p < cols data)%nat keep /\
    length keep = (rows data * cols data - Nat.min drop (rows data * cols data - 1))%nat /\
    keeps_only2 keep data out /\
    forall i j i' j' x y, In (i, j) keep -> ~ In (i', j') keep -> mget data i j = Ok x -> mget data i' j' = Ok y ->
      Rabs y <= Rabs x.
Proof.
  intros W HC Hl. destruct (real_trunc (rows data * cols data) level Hl) as (drop & Ht & _ & HB).
  destruct (simple2_ok ne level data drop W HC Ht) as (out & keep & E & ND & HF & HL & HK & HO).
  exists out, keep, drop. do 6 (split; auto). intros. apply real_gt. eapply HO; eauto.
Qed.
Lemma simple_level0_real ne1 ne2 : nth_element_contract ne1 -> nth_element_contract ne2 ->
  (forall data : list R, simple1 ne1 0 data = Ok data) /\
  (forall data : mat R, mwf data -> simple2 ne2 0 data = Ok data).
Proof.
  intros H1 H2. destruct (simple_level0 ne1 ne2 0 H1 H2) as (HA & HB). split.
  - intros. apply HA. apply real_level0.
  - intros. apply HB; auto. apply real_level0.
Qed.
Lemma simple_usable ne1 ne2 level : nth_element_contract ne1 -> nth_element_contract ne2 -> 0 <= level <= 1 ->
  keeps_shape (simple_denoiser ne1 ne2 level).
Proof.
  intros H1 H2 Hl. apply simple_keeps; auto. intros n. destruct (real_trunc n level Hl) as (d & E & _). eauto.
Qed.

Lemma level1_survivor2 ne (data : mat R) : mwf data -> nth_element_contract ne ->
  (exists i j x, mget data i j = Ok x /\ x <> 0) ->
  exists out i j x, simple2 ne 1 data = Ok out /\ mget out i j = Ok x /\ x <> 0.
Proof.
  intros W HC (i0 & j0 & x0 & Hx0 & Hnz).
  destruct (simple2_ok ne 1 data _ W HC (real_level1 _)) as (out & keep & E & ND & HF & HL & (_ & _ & _ & HK) & HO).
  pose proof (mget_ok_lt _ _ _ _ Hx0) as (Hi0 & Hj0).
  assert (Hne : (1 <= rows data * cols data)%nat) by nia.
  assert (HL1 : length keep = 1%nat) by lia.
  destruct keep as [|[i j] [|]]; try discriminate.
  inversion HF as [|? ? (Hi & Hj) _]; subst. cbn [fst snd] in *.
  pose proof (mget_mel 0 data i j W Hi Hj) as Ex. set (x := mel 0 data i j) in *.
  exists out, i, j, x. split; auto. split.
  - rewrite (HK i j x Ex). cbn. rewrite !Nat.eqb_refl. reflexivity.
  - intros E0. destruct (Nat.eq_dec i0 i) as [Ei|Ni], (Nat.eq_dec j0 j) as [Ej|Nj]; try (subst; congruence);
    assert (HA : Rabs x0 <= Rabs x) by (apply real_gt; apply (HO i j i0 j0); auto; simpl; auto;
      intros [HE|[]]; inversion HE; congruence);
    rewrite E0, Rabs_R0 in HA; assert (0 < Rabs x0) by (apply Rabs_pos_lt; auto); lra.
Qed.

(** A concrete std::nth_element: sort by decreasing magnitude. *)
Section Sort.
Context {K : Type}.
Fixpoint ins (e : R * K) (l : list (R * K)) : list (R * K) :=
  match l with
  | [] => [e]
  | x :: l' => if Rlt_dec (fst e) (fst x) then x :: ins e l' else e :: x :: l'
  end.
Definition sort_desc (l : list (R * K)) (k : nat) : list (R * K) := fold_right ins [] l.
Lemma ins_perm e l : Permutation (e :: l) (ins e l).
Proof.
  induction l as [|x l IH]; simpl; auto. destruct (Rlt_dec (fst e) (fst x)); auto.
  eapply Permutation_trans; [apply perm_swap|]. constructor; auto.
Qed.
Lemma sort_perm l : Permutation l (fold_right ins [] l).
Proof.
  induction l; simpl; auto. eapply Permutation_trans; [|apply ins_perm]. constructor; auto.
Qed.
Definition desc (l : list (R * K)) : Prop :=
  forall i j x y, (i < j)%nat -> nth_error l i = Some x -> nth_error l j = Some y -> fst y <= fst x.
Lemma desc_cons x l : (forall y, In y l -> fst y <= fst x) -> desc l -> desc (x :: l).
Proof.
  intros H D [|i] [|j] a b Hij Ha Hb; simpl in *; try lia.
  - inversion Ha; subst. apply H. eapply nth_error_In; eauto.
  - apply (D i j); auto; lia.
Qed.
Lemma desc_tail x l : desc (x :: l) -> desc l /\ forall y, In y l -> fst y <= fst x.
Proof.
  intros D. split.
  - intros i j a b Hij Ha Hb. apply (D (S i) (S j)); auto; lia.
  - intros y Hy. apply In_nth_error in Hy as (j & Hj). apply (D 0%nat (S j)); auto; lia.
Qed.
Lemma ins_desc e l : desc l -> desc (ins e l).
Proof.
  induction l as [|x l IH]; intros D; simpl.
  - apply desc_cons; auto. intros y [].
  - apply desc_tail in D as D'. destruct D' as (D' & H). destruct (Rlt_dec (fst e) (fst x)).
    + apply desc_cons; auto. intros y Hy. apply (Permutation_in (l' := e :: l)) in Hy; [|apply Permutation_sym, ins_perm].
      destruct Hy as [<-|Hy]; auto. lra.
    + apply desc_cons; auto. intros y [<-|Hy]; [lra|]. apply H in Hy. lra.
Qed.
Lemma sort_contract : nth_element_contract sort_desc.
Proof.
  intros l k Hk. split; [apply sort_perm|]. intros i j x y Hi Hj Hx Hy.
  assert (D : desc (sort_desc l k)).
  { unfold sort_desc. clear. induction l; simpl; [intros [|i] j x y; discriminate|]. apply ins_desc; auto. }
  assert (fst y <= fst x) by (apply (D i j); auto; lia).
  cbn. destruct (Rlt_dec (fst x) (fst y)); auto. lra.
Qed.
End Sort.
