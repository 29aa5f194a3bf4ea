(** * P_Wavelet: the functions of wavelet.cc as pure functions (any arithmetic). *)
Require Import List Bool Arith ZArith QArith Lia Permutation Sorted.
Require Import ZifyBool.
Require Import Verif.M_Base Verif.M_Wavelet Verif.P_Base.
Import ListNotations.
Open Scope nat_scope.

Lemma loop_fold {S} n s (body : nat -> S -> res S) (F : nat -> S -> S) a :
  (forall j acc, s <= j < s + n -> body j acc = Ok (F j acc)) ->
  loop n s body a = Ok (fold_left (fun acc j => F j acc) (seq s n) a).
Proof.
  revert s a; induction n; intros s a H; simpl; [reflexivity|].
  rewrite H by lia. simpl. apply IHn. intros; apply H; lia.
Qed.

Lemma fold_left_ext_in {A B} (f g : A -> B -> A) l a :
  (forall acc x, In x l -> f acc x = g acc x) -> fold_left f l a = fold_left g l a.
Proof.
  revert a; induction l; simpl; intros; auto. rewrite H by auto. apply IHl; auto.
Qed.

(** ** index arithmetic *)
Lemma wrap_once n x : n <= x -> x < 2 * n -> x - n = x mod n.
Proof.
  intros. symmetry. replace x with (x - n + 1 * n) at 1 by lia.
  rewrite Nat.mod_add by lia. apply Nat.mod_small; lia.
Qed.
Lemma wrap_if n x : x < 2 * n -> (if n <=? x then x - n else x) = x mod n.
Proof.
  intros. destruct (Nat.leb_spec n x).
  - apply wrap_once; auto.
  - symmetry; apply Nat.mod_small; auto.
Qed.
Lemma half_even n i : i < n / 2 -> 2 * i + 1 < n.
Proof. intros. pose proof (Nat.div_mod n 2 ltac:(lia)). pose proof (Nat.mod_upper_bound n 2 ltac:(lia)). lia. Qed.

Section W.
Context {T : Type} {A : Arith T}.

(** sum of g 0 .. g (n-1), left to right from zero *)
Definition sumT (n : nat) (g : nat -> T) : T :=
  fold_left (fun acc j => aadd acc (g j)) (seq 0 n) a0.

Lemma sumT_ext n f g : (forall j, j < n -> f j = g j) -> sumT n f = sumT n g.
Proof.
  intros. unfold sumT. apply fold_left_ext_in. intros acc j Hj. apply in_seq in Hj.
  rewrite H by lia. reflexivity.
Qed.

(** Analysis: sample i of the filtered and decimated periodic signal. *)
Definition afilt (f : list T) (n : nat) (x : nat -> T) (i : nat) : T :=
  sumT (length f) (fun j => amul (x ((2 * i + j) mod n)) (nth j f a0)).

Lemma afilt_ext f n x y i : 0 < n -> (forall j, j < n -> x j = y j) -> afilt f n x i = afilt f n y i.
Proof.
  intros Hn H. unfold afilt. apply sumT_ext. intros. rewrite H; [reflexivity|].
  apply Nat.mod_upper_bound; lia.
Qed.

(** Synthesis with the reversed reconstruction filters lr, hr: output sample c. *)
Definition sfilt (lr hr : list T) (n : nat) (low high : nat -> T) (c : nat) : T :=
  fold_left (fun acc jj =>
      let k := (n - (length lr - 2) / 2 + c / 2 + jj) mod n in
      let tap := (if Nat.even c then 1 else 0) + 2 * jj in
      aadd (aadd acc (amul (nth tap lr a0) (low k))) (amul (nth tap hr a0) (high k)))
    (seq 0 (length lr / 2)) a0.

Lemma sfilt_ext lr hr n l h l' h' c : 0 < n ->
  (forall j, j < n -> l j = l' j) -> (forall j, j < n -> h j = h' j) ->
  sfilt lr hr n l h c = sfilt lr hr n l' h' c.
Proof.
  intros Hn H1 H2. unfold sfilt. apply fold_left_ext_in. intros acc jj _.
  cbv zeta. rewrite H1, H2 by (apply Nat.mod_upper_bound; lia). reflexivity.
Qed.

(** ** the two-row filter matrix *)
Lemma find_combine (l : list T) s j d : j < length l ->
  find (fun e => fst e =? s + j) (combine (seq s (length l)) l) = Some (s + j, nth j l d).
Proof.
  revert s j; induction l as [|x l IH]; intros s j Hj; simpl in *; [lia|].
  destruct j as [|j].
  - rewrite Nat.add_0_r. rewrite Nat.eqb_refl. reflexivity.
  - destruct (Nat.eqb_spec s (s + S j)); [lia|].
    replace (s + S j) with (S s + j) by lia. apply IH; lia.
Qed.

Lemma sget_filter_0 lo hi j : j < length lo -> sget (filter_mat lo hi) 0 j = Ok (nth j lo a0).
Proof.
  intros. unfold sget. simpl srows; simpl scols.
  rewrite guard_true by lia. cbn [bind]. unfold rd; simpl nth_error. cbn [bind].
  pose proof (find_combine lo 0 j a0 H) as E. simpl in E. rewrite E. reflexivity.
Qed.
Lemma sget_filter_1 lo hi j : length hi = length lo -> j < length lo ->
  sget (filter_mat lo hi) 1 j = Ok (nth j hi a0).
Proof.
  intros. unfold sget. simpl srows; simpl scols.
  rewrite guard_true by lia. cbn [bind]. unfold rd; simpl nth_error. cbn [bind].
  assert (H1 : j < length hi) by lia.
  pose proof (find_combine hi 0 j a0 H1) as E. simpl in E. rewrite E. reflexivity.
Qed.

Lemma fold_pair (f g : nat -> T) l a b :
  fold_left (fun (acc : T * T) j => (aadd (fst acc) (f j), aadd (snd acc) (g j))) l (a, b) =
  (fold_left (fun acc j => aadd acc (f j)) l a, fold_left (fun acc j => aadd acc (g j)) l b).
Proof. revert a b; induction l; simpl; auto. Qed.

Lemma dwt_filter lo hi n (x : nat -> T) :
  length hi = length lo -> length lo <= n ->
  dwt (map x (seq 0 n)) (filter_mat lo hi) =
  Ok (map (afilt lo n x) (seq 0 (n / 2)), map (afilt hi n x) (seq 0 (n / 2))).
Proof.
  intros Hl Hn. unfold dwt. rewrite map_length, seq_length. simpl scols; simpl srows.
  rewrite guard_true by lia. cbn [bind Nat.eqb].
  rewrite (tabulateM_ok _ _ (fun i => (afilt lo n x i, afilt hi n x i))).
  - cbn [bind]. rewrite !map_map. reflexivity.
  - intros i Hi. apply half_even in Hi.
    rewrite (loop_fold _ _ _ (fun j (acc : T * T) =>
       (aadd (fst acc) (amul (x ((2 * i + j) mod n)) (nth j lo a0)),
        aadd (snd acc) (amul (x ((2 * i + j) mod n)) (nth j hi a0))))).
    + rewrite fold_pair. unfold afilt, sumT. rewrite Hl. reflexivity.
    + intros j acc Hj. replace (i * 2 + j) with (2 * i + j) by lia.
      rewrite wrap_if by lia.
      rewrite (rd_nth _ _ a0) by (rewrite map_length, seq_length; apply Nat.mod_upper_bound; lia).
      cbn [bind]. rewrite sget_filter_0, sget_filter_1 by lia. cbn [bind].
      rewrite nth_map_seq by (apply Nat.mod_upper_bound; lia). reflexivity.
Qed.

Lemma idwt_filter lr hr t n (low high : nat -> T) :
  length lr = 2 * t -> length hr = 2 * t -> 1 <= t -> t <= n + 1 ->
  idwt (map low (seq 0 n)) (map high (seq 0 n)) (filter_mat lr hr) =
  Ok (map (sfilt lr hr n low high) (seq 0 (2 * n))).
Proof.
  intros Hl Hh Ht Hn. unfold idwt. rewrite !map_length, !seq_length, Nat.eqb_refl.
  rewrite guard_true by auto. simpl scols; simpl srows. cbn [bind Nat.eqb].
  replace (n * 2) with (2 * n) by lia.
  apply tabulateM_ok. intros i Hi.
  assert (E2 : (length lr - 2) / 2 = t - 1).
  { rewrite Hl. replace (2 * t - 2) with ((t - 1) * 2) by lia. apply Nat.div_mul; lia. }
  rewrite guard_true by (rewrite E2; lia). cbn [bind].
  unfold sfilt.
  replace ((length lr + 1) / 2) with (length lr / 2).
  2:{ rewrite Hl. replace (2 * t) with (t * 2) by lia. rewrite Nat.div_mul, Nat.div_add_l by lia. rewrite (Nat.div_small 1 2) by lia; lia. }
  assert (E3 : length lr / 2 = t).
  { rewrite Hl. replace (2 * t) with (t * 2) by lia. apply Nat.div_mul; lia. }
  assert (i / 2 < n) by (apply Nat.div_lt_upper_bound; lia).
  apply loop_fold. intros jj acc Hjj. cbv zeta.
  replace (2 * jj / 2) with jj by (rewrite Nat.mul_comm, Nat.div_mul; lia).
  rewrite wrap_if by lia.
  assert ((n - (length lr - 2) / 2 + i / 2 + jj) mod n < n) by (apply Nat.mod_upper_bound; lia).
  rewrite !(rd_nth _ _ a0) by (rewrite map_length, seq_length; auto).
  cbn [bind]. rewrite !nth_map_seq by auto.
  rewrite sget_filter_0, sget_filter_1 by (destruct (Nat.even i); lia). reflexivity.
Qed.

(** ** sparse matrices *)
Definition swf (m : smat T) : Prop :=
  length (srow m) = srows m /\
  Forall (Forall (fun e => fst e < scols m)) (srow m).

Definition rowdot (row : list (nat * T)) (x : nat -> T) : T :=
  fold_left (fun acc e => aadd acc (amul (snd e) (x (fst e)))) row a0.

Lemma rowdot_ext row x y : (forall e, In e row -> x (fst e) = y (fst e)) -> rowdot row x = rowdot row y.
Proof.
  intros. unfold rowdot. apply fold_left_ext_in. intros acc e He. rewrite H by auto. reflexivity.
Qed.

Lemma loop_rd {B S} (l : list B) (f : B -> S -> S) body a :
  (forall k e acc, nth_error l k = Some e -> body k acc = Ok (f e acc)) ->
  loop (length l) 0 body a = Ok (fold_left (fun acc e => f e acc) l a).
Proof.
  assert (G : forall l s a, (forall k e acc, nth_error l k = Some e -> body (s + k) acc = Ok (f e acc)) ->
    loop (length l) s body a = Ok (fold_left (fun acc e => f e acc) l a)).
  { clear. induction l as [|e l IH]; intros s a H; simpl; [reflexivity|].
    rewrite <- (Nat.add_0_r s) at 1. rewrite (H 0 e) by reflexivity. simpl.
    apply IH. intros k e' acc Hk. replace (Datatypes.S s + k) with (s + Datatypes.S k) by lia. apply H; auto. }
  apply (G l 0).
Qed.

Lemma spmv_ok (m : smat T) (x : nat -> T) n :
  swf m -> scols m = n ->
  spmv m (map x (seq 0 n)) = Ok (map (fun row => rowdot row x) (srow m)).
Proof.
  intros [_ Hf] Hn. unfold spmv. rewrite map_length, seq_length, Hn, Nat.eqb_refl. cbn [check bind].
  apply mapM_ok. intros row Hrow. rewrite Forall_forall in Hf. specialize (Hf row Hrow).
  rewrite Forall_forall in Hf.
  apply loop_rd. intros k e acc Hk. rewrite (rd_some _ _ _ Hk). cbn [bind].
  assert (fst e < n) by (rewrite <- Hn; apply Hf; eapply nth_error_In; eauto).
  rewrite (rd_nth _ _ a0) by (rewrite map_length, seq_length; auto). cbn [bind].
  rewrite nth_map_seq by auto. reflexivity.
Qed.

(** column i of the transposed matrix *)
Lemma stranspose_swf m : swf m -> swf (stranspose m).
Proof.
  intros [H1 H2]. split; simpl.
  - rewrite map_length, seq_length. reflexivity.
  - apply Forall_forall. intros row Hrow. apply in_map_iff in Hrow as (c & <- & Hc).
    apply Forall_forall. intros e He. apply in_flat_map in He as (ir & Hir & He).
    apply in_map_iff in He as (e' & <- & He'). simpl.
    destruct ir as [i r]. apply in_combine_l in Hir. apply in_seq in Hir. simpl. lia.
Qed.

(** ** DaubechiesMat rows *)
Definition dstart (n L i : nat) : nat := if L <? n - 2 * i then 0 else n - 2 * i.
Definition dpos (n L i m : nat) : nat := (dstart n L i + m) mod L.
Definition drow (n : nat) (f : list T) (i : nat) : list (nat * T) :=
  map (fun m => ((2 * i + dpos n (length f) i m) mod n, nth (dpos n (length f) i m) f a0))
      (seq 0 (length f)).

Lemma dpos_col_lt n L i m m' : i < n / 2 -> L <= n -> m < m' -> m' < L ->
  (2 * i + dpos n L i m) mod n < (2 * i + dpos n L i m') mod n.
Proof.
  intros Hi HL Hm Hm'. apply half_even in Hi. unfold dpos, dstart.
  destruct (Nat.ltb_spec L (n - 2 * i)).
  - rewrite !Nat.add_0_l, !(Nat.mod_small _ L) by lia. rewrite !Nat.mod_small by lia. lia.
  - set (c0 := n - 2 * i) in *.
    assert (G : forall q, q < L -> (2 * i + (c0 + q) mod L) mod n = if q <? L - c0 then q else 2 * i + (q - (L - c0))).
    { intros q Hq. destruct (Nat.ltb_spec q (L - c0)).
      - rewrite (Nat.mod_small (c0 + q)) by lia.
        replace (2 * i + (c0 + q)) with (q + 1 * n) by (unfold c0; lia).
        rewrite Nat.mod_add by lia. apply Nat.mod_small; lia.
      - replace (c0 + q) with (q - (L - c0) + 1 * L) by lia.
        rewrite Nat.mod_add by lia. rewrite (Nat.mod_small _ L) by lia.
        apply Nat.mod_small. unfold c0 in *; lia. }
    rewrite !G by lia.
    destruct (Nat.ltb_spec m (L - c0)), (Nat.ltb_spec m' (L - c0)); unfold c0 in *; lia.
Qed.

Lemma daub_row_ok n (f : list T) i :
  1 <= length f -> length f <= n -> i < n / 2 -> daub_row n f i = Ok (drow n f i).
Proof.
  intros HL Hn Hi. pose proof (half_even _ _ Hi) as Hi2.
  unfold daub_row, drow. set (L := length f) in *.
  fold (dstart n L i).
  set (ent := fun m => ((2 * i + dpos n L i m) mod n, nth (dpos n L i m) f a0)).
  match goal with |- bind (loop _ _ ?b _) _ = _ => set (body := b) end.
  assert (HS : dstart n L i <= L) by (unfold dstart; destruct (Nat.ltb_spec L (n - 2 * i)); lia).
  destruct (loop_inv L 0 body
     (fun m st => fst st <= L /\ fst st mod L = (dstart n L i + m) mod L /\ snd st = map ent (seq 0 m))
     (dstart n L i, [])) as (st & E & _ & _ & E3).
  - simpl. rewrite Nat.add_0_r. auto.
  - intros m [ci row] Hm (H1 & H2 & H3). simpl in H1, H2, H3.
    assert (E : (if L <=? ci then let* _ := guard (0 <? L) in Ok (ci mod L) else Ok ci)
                = Ok (dpos n L i m)).
    { unfold dpos. destruct (Nat.leb_spec L ci).
      - rewrite guard_true by lia. cbn [bind]. f_equal; auto.
      - f_equal. rewrite <- H2. symmetry; apply Nat.mod_small; auto. }
    assert (Hp : dpos n L i m < L) by (unfold dpos; apply Nat.mod_upper_bound; lia).
    exists (S (dpos n L i m), map ent (seq 0 (S m))). split; [|split; [|split]].
    + unfold body. simpl fst; simpl snd.
      change (length f) with L. rewrite E. cbn [bind].
      replace (i * 2) with (2 * i) by lia.
      replace (if n <=? 2 * i + dpos n L i m then (2 * i + dpos n L i m) mod n else 2 * i + dpos n L i m)
        with ((2 * i + dpos n L i m) mod n).
      2:{ destruct (Nat.leb_spec n (2 * i + dpos n L i m)); auto. apply Nat.mod_small; auto. }
      rewrite (rd_nth _ _ a0) by auto. cbn [bind].
      unfold append_row.
      assert ((2 * i + dpos n L i m) mod n < n) by (apply Nat.mod_upper_bound; lia).
      rewrite guard_true by lia. cbn [bind].
      rewrite guard_true.
      * cbn [bind]. f_equal. f_equal. rewrite seq_S, map_app. simpl. rewrite H3. reflexivity.
      * apply forallb_forall. intros e He. rewrite H3 in He.
        apply in_map_iff in He as (m' & <- & Hm'). apply in_seq in Hm'.
        apply Nat.ltb_lt. unfold ent; simpl fst.
        apply dpos_col_lt; lia.
    + simpl fst. lia.
    + simpl fst. unfold dpos.
      replace (dstart n L i + S m) with (1 + (dstart n L i + m)) by lia.
      change (S ((dstart n L i + m) mod L)) with (1 + (dstart n L i + m) mod L). rewrite Nat.add_mod_idemp_r by lia. reflexivity.
    + reflexivity.
  - rewrite E. cbn [bind]. rewrite E3. reflexivity.
Qed.

Lemma drow_length n f i : length (drow n f i) = length f.
Proof. unfold drow. rewrite map_length, seq_length. reflexivity. Qed.

Lemma drow_cols n f i e : 0 < n -> In e (drow n f i) -> fst e < n.
Proof.
  intros Hn He. apply in_map_iff in He as (m & <- & _). simpl. apply Nat.mod_upper_bound; lia.
Qed.

Definition dmat_pure (n : nat) (lo hi : list T) : smat T :=
  SMat n n (map (drow n lo) (seq 0 (n / 2)) ++ map (drow n hi) (seq 0 (n / 2))
            ++ repeat [] (n - (n / 2 + n / 2))).

Lemma dmat_pure_swf n lo hi : 0 < n -> swf (dmat_pure n lo hi).
Proof.
  intros Hn. split; simpl.
  - rewrite !app_length, !map_length, !seq_length, repeat_length.
    pose proof (Nat.div_mod n 2 ltac:(lia)). lia.
  - apply Forall_forall. intros row Hrow. apply Forall_forall. intros e He.
    apply in_app_or in Hrow as [Hr|Hr]; [|apply in_app_or in Hr as [Hr|Hr]].
    + apply in_map_iff in Hr as (i & <- & _). eapply drow_cols; eauto.
    + apply in_map_iff in Hr as (i & <- & _). eapply drow_cols; eauto.
    + apply repeat_spec in Hr. subst row. destruct He.
Qed.

(** ** filters *)
Definition lo_r (t : Z) : list T := map asqrt2 (map alit (dbtable t)).
Definition hi_r (t : Z) : list T := qmf (lo_r t).

Lemma negate_from_length first i (l : list T) : length (negate_from first i l) = length l.
Proof. revert i; induction l; simpl; intros; auto. Qed.
Lemma qmf_length (l : list T) : length (qmf l) = length l.
Proof. unfold qmf. rewrite negate_from_length, rev_length. reflexivity. Qed.
Lemma hi_r_length t : length (hi_r t) = length (lo_r t).
Proof. apply qmf_length. Qed.

Lemma dbtable_length t : (1 <= t <= 10)%Z -> length (dbtable t) = 2 * Z.to_nat t.
Proof.
  intros H. assert (t = 1 \/ t = 2 \/ t = 3 \/ t = 4 \/ t = 5 \/ t = 6 \/ t = 7 \/ t = 8 \/ t = 9 \/ t = 10)%Z by lia.
  repeat (destruct H0 as [->|H0]; [reflexivity|]). subst. reflexivity.
Qed.
Lemma lo_r_length t : (1 <= t <= 10)%Z -> length (lo_r t) = 2 * Z.to_nat t.
Proof. intros. unfold lo_r. rewrite !map_length. apply dbtable_length; auto. Qed.

Lemma daubechies_mat_ok n t :
  (1 <= t <= 10)%Z -> 2 * Z.to_nat t <= n ->
  daubechies_mat n (t * 2) = Ok (dmat_pure n (lo_r t) (hi_r t)).
Proof.
  intros Ht Hn. unfold daubechies_mat.
  rewrite guard_true by (rewrite Z.even_mul; apply orb_true_r). cbn [bind].
  rewrite guard_true by lia. cbn [bind].
  rewrite Z.div_mul by lia. unfold dbwavf. rewrite guard_true by lia. cbn [bind].
  unfold orthfilt. rewrite !rev_involutive.
  fold (lo_r t). fold (hi_r t).
  pose proof (lo_r_length t Ht) as HL. pose proof (hi_r_length t) as HH.
  rewrite (tabulateM_ok _ _ (drow n (lo_r t))) by (intros; apply daub_row_ok; lia).
  cbn [bind].
  rewrite (tabulateM_ok _ _ (drow n (hi_r t))) by (intros; apply daub_row_ok; lia).
  reflexivity.
Qed.

(** ** 2D *)
Definition srow_at (m : smat T) (i : nat) : list (nat * T) := nth i (srow m) [].

Lemma map_srow m (x : nat -> T) : swf m ->
  map (fun row => rowdot row x) (srow m) = map (fun i => rowdot (srow_at m i) x) (seq 0 (srows m)).
Proof.
  intros [H _]. rewrite <- H. unfold srow_at.
  rewrite <- (map_map (fun i => nth i (srow m) []) (fun row => rowdot row x)).
  rewrite map_seq_nth. reflexivity.
Qed.

Lemma srow_at_cols m i e : swf m -> In e (srow_at m i) -> fst e < scols m.
Proof.
  intros [H1 H2] He. unfold srow_at in He.
  destruct (Nat.lt_ge_cases i (length (srow m))).
  - rewrite Forall_forall in H2. specialize (H2 (nth i (srow m) [])).
    rewrite Forall_forall in H2. apply H2; auto. apply nth_In; auto.
  - rewrite nth_overflow in He by lia. destruct He.
Qed.

(** separable operator: rows by mw, then columns by mh *)
Definition sep (mw mh : smat T) (x : nat -> nat -> T) (i j : nat) : T :=
  rowdot (srow_at mh i) (fun i' => rowdot (srow_at mw j) (fun j' => x i' j')).

Lemma dwt2s_mk (dw dh : smat T) h w (x : nat -> nat -> T) :
  swf dw -> swf dh -> srows dw = w -> scols dw = w -> srows dh = h -> scols dh = h ->
  dwt2s (mk h w x) dw dh = Ok (mk h w (sep dw dh x)).
Proof.
  intros Ww Wh R1 C1 R2 C2. unfold dwt2s. simpl rows; simpl cols.
  rewrite guard_true by lia. cbn [bind].
  rewrite (tabulateM_ok h _ (fun i => map (fun j => rowdot (srow_at dw j) (fun j' => x i j')) (seq 0 w))).
  2:{ intros i Hi. rewrite mrow_mk by auto. cbn [bind].
      rewrite spmv_ok by auto. cbn [bind].
      rewrite map_srow, R1 by auto. rewrite map_length, seq_length, Nat.eqb_refl. reflexivity. }
  cbn [bind].
  rewrite (concat_map_mk h w (fun i j => rowdot (srow_at dw j) (fun j' => x i j'))).
  rewrite (tabulateM_ok w _ (fun j => map (fun i => sep dw dh x i j) (seq 0 h))).
  2:{ intros j Hj. rewrite mcol_mk by auto. cbn [bind].
      rewrite spmv_ok by auto. cbn [bind].
      rewrite map_srow, R2 by auto. rewrite map_length, seq_length, Nat.eqb_refl. reflexivity. }
  cbn [bind].
  apply mbuildM_ok. intros i j Hi Hj.
  rewrite (rd_nth _ _ []) by (rewrite map_length, seq_length; auto). cbn [bind].
  rewrite nth_map_seq by auto.
  rewrite (rd_nth _ _ a0) by (rewrite map_length, seq_length; auto).
  rewrite nth_map_seq by auto. reflexivity.
Qed.

Lemma dwt2_mk (dw dh : smat T) h w (x : nat -> nat -> T) :
  swf dw -> swf dh -> srows dw = w -> scols dw = w -> srows dh = h -> scols dh = h ->
  dwt2 (mk h w x) dw dh =
  Ok (mk (h / 2) (w / 2) (fun i j => sep dw dh x i j),
      mk (h / 2) (w / 2) (fun i j => sep dw dh x (h / 2 + i) j),
      mk (h / 2) (w / 2) (fun i j => sep dw dh x i (w / 2 + j)),
      mk (h / 2) (w / 2) (fun i j => sep dw dh x (h / 2 + i) (w / 2 + j))).
Proof.
  intros. unfold dwt2. rewrite dwt2s_mk by auto. cbn [bind].
  rewrite H2, H4.
  pose proof (Nat.div_mod h 2 ltac:(lia)). pose proof (Nat.div_mod w 2 ltac:(lia)).
  rewrite !msub_mk by lia. reflexivity.
Qed.

(** four quadrants joined *)
Definition joined (h w : nat) (ll lh hl hh : nat -> nat -> T) (i j : nat) : T :=
  if i <? h then (if j <? w then ll i j else hl i (j - w))
  else (if j <? w then lh (i - h) j else hh (i - h) (j - w)).

Lemma idwt2_mk (dw dh : smat T) h w (ll lh hl hh : nat -> nat -> T) :
  swf dw -> swf dh -> srows dw = w * 2 -> scols dw = w * 2 -> srows dh = h * 2 -> scols dh = h * 2 ->
  idwt2 (mk h w ll) (mk h w lh) (mk h w hl) (mk h w hh) dw dh =
  Ok (mk (h * 2) (w * 2) (sep dw dh (joined h w ll lh hl hh))).
Proof.
  intros Ww Wh R1 C1 R2 C2. unfold idwt2. simpl rows; simpl cols.
  rewrite guard_true by lia. cbn [bind]. rewrite mundef_mk, R1, R2.
  rewrite (mblit_mk _ _ _ 0 0 h w _ (fun i j => Some (ll i j))) by
    (try lia; intros; unfold some; rewrite mget_mk by lia; reflexivity).
  cbn [bind].
  rewrite (mblit_mk _ _ _ h 0 h w _ (fun i j => Some (lh i j))) by
    (try lia; intros; unfold some; rewrite mget_mk by lia; reflexivity).
  cbn [bind].
  rewrite (mblit_mk _ _ _ 0 w h w _ (fun i j => Some (hl i j))) by
    (try lia; intros; unfold some; rewrite mget_mk by lia; reflexivity).
  cbn [bind].
  rewrite (mblit_mk _ _ _ h w h w _ (fun i j => Some (hh i j))) by
    (try lia; intros; unfold some; rewrite mget_mk by lia; reflexivity).
  cbn [bind].
  rewrite (mfreeze_mk _ _ _ (joined h w ll lh hl hh)).
  - cbn [bind]. apply dwt2s_mk; auto.
  - intros i j Hi Hj. unfold joined.
    destruct (Nat.ltb_spec i h), (Nat.ltb_spec j w);
    repeat match goal with
    | |- context[if ?b then _ else _] => destruct b eqn:?
    end; try lia; do 2 f_equal; lia.
Qed.

Lemma sep_ext dw dh h w x y i j :
  swf dw -> swf dh -> scols dw = w -> scols dh = h ->
  (forall i j, i < h -> j < w -> x i j = y i j) -> sep dw dh x i j = sep dw dh y i j.
Proof.
  intros Ww Wh Cw Ch H. unfold sep. apply rowdot_ext. intros e He. apply rowdot_ext. intros e' He'.
  apply H; [rewrite <- Ch; eapply srow_at_cols; eauto|rewrite <- Cw; eapply srow_at_cols; eauto].
Qed.

End W.
