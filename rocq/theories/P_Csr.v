(** * P_Csr: streamvbyte and CSR round trips *)
Require Import List Bool Arith ZArith Lia.
Require Import Verif.M_Base Verif.M_Params Verif.M_Buffer Verif.M_Denoise Verif.M_Archive Verif.M_Serializer
  Verif.P_Base Verif.P_Denoise Verif.S_Serializer Verif.P_Archive.
Import ListNotations.
Open Scope Z_scope.

(** ** streamvbyte *)
Definition u32 (z : Z) : Prop := 0 <= z < 2 ^ 32.
Lemma svb_code_range v : 0 <= svb_code v <= 3.
Proof. unfold svb_code. repeat destruct (_ <? _); lia. Qed.
Lemma svb_code_fits v : u32 v -> v < 256 ^ (svb_code v + 1).
Proof.
  unfold u32, svb_code. intros H.
  destruct (Z.ltb_spec v (2 ^ 8)); [cbn; lia|]. destruct (Z.ltb_spec v (2 ^ 16)); [cbn; lia|].
  destruct (Z.ltb_spec v (2 ^ 24)); [cbn; lia|]. cbn. lia.
Qed.
Lemma deltas_length l : forall p, length (deltas p l) = length l.
Proof. induction l; intros; cbn [deltas length]; auto. Qed.
Lemma deltas_u32 l : forall p, Forall u32 (deltas p l).
Proof. induction l; intros; cbn [deltas]; constructor; auto. apply Z.mod_pos_bound. lia. Qed.

Lemma list4_ind {X} (P : list X -> Prop) :
  P [] -> (forall a, P [a]) -> (forall a b, P [a; b]) -> (forall a b c, P [a; b; c]) ->
  (forall a b c d t, P t -> P (a :: b :: c :: d :: t)) -> forall l, P l.
Proof.
  intros H0 H1 H2 H3 H4. fix IH 1. intros [|a [|b [|c [|d t]]]];
  [exact H0 | apply H1 | apply H2 | apply H3 | apply H4, IH].
Qed.

Lemma control_length l : length (control_bytes l) = ((length l + 3) / 4)%nat.
Proof.
  induction l as [| | | |a b c d t IH] using list4_ind; try reflexivity.
  cbn [control_bytes length]. rewrite IH.
  replace (S (S (S (S (length t)))) + 3)%nat with (length t + 3 + 1 * 4)%nat by lia.
  rewrite Nat.div_add by lia. lia.
Qed.
Lemma control_is_byte l : Forall (fun c => 0 <= c <= 3) l -> Forall is_byte (control_bytes l).
Proof.
  unfold is_byte. induction l as [|a|a b|a b c|a b c d t IH] using list4_ind; intros H; cbn [control_bytes]; auto;
  repeat match goal with K : Forall _ (_ :: _) |- _ => apply Forall_cons_iff in K; destruct K end;
  repeat constructor; auto; lia.
Qed.
Ltac digits :=
  change (4 ^ Z.of_nat (0 mod 4)) with 1; change (4 ^ Z.of_nat (1 mod 4)) with 4;
  change (4 ^ Z.of_nat (2 mod 4)) with 16; change (4 ^ Z.of_nat (3 mod 4)) with 64;
  Z.div_mod_to_equations; lia.
Lemma control_nth l : Forall (fun c => 0 <= c <= 3) l -> forall i c, nth_error l i = Some c ->
  exists k, nth_error (control_bytes l) (i / 4) = Some k /\ k / 4 ^ Z.of_nat (i mod 4) mod 4 = c.
Proof.
  induction l as [|a|a b|a b c|a b c d t IH] using list4_ind; intros H i x Hi;
  repeat match goal with K : Forall _ (_ :: _) |- _ => apply Forall_cons_iff in K; destruct K end.
  - destruct i; discriminate.
  - destruct i as [|[|i]]; try discriminate; cbn in Hi; inversion Hi; subst; clear Hi;
    eexists; (split; [reflexivity|]); digits.
  - destruct i as [|[|[|i]]]; try discriminate; cbn in Hi; inversion Hi; subst; clear Hi;
    eexists; (split; [reflexivity|]); digits.
  - destruct i as [|[|[|[|i]]]]; try discriminate; cbn in Hi; inversion Hi; subst; clear Hi;
    eexists; (split; [reflexivity|]); digits.
  - destruct i as [|[|[|[|i]]]].
    1-4: cbn in Hi; inversion Hi; subst; clear Hi;
    eexists; (split; [reflexivity|]); digits.
    replace (S (S (S (S i)))) with (i + 1 * 4)%nat in * by lia.
    rewrite Nat.div_add, Nat.mod_add by lia.
    replace (i + 1 * 4)%nat with (S (S (S (S i)))) in Hi by lia. cbn [nth_error] in Hi.
    destruct (IH ltac:(auto) i x Hi) as (k & Hk & E). exists k. split; auto.
    rewrite Nat.add_comm. exact Hk.
Qed.

Lemma svb_data_ok rest : forall l prev, Forall u32 l ->
  svb_data (map svb_code (deltas prev l)) prev
    (concat (map (fun v => le (Z.to_nat (svb_code v + 1)) v) (deltas prev l)) ++ rest) = Ok l.
Proof.
  induction l as [|x l IH]; intros prev H; [reflexivity|].
  apply Forall_cons_iff in H. destruct H as [Hx Hl].
  cbn [deltas map svb_data concat]. set (v := (x - prev) mod 2 ^ 32).
  assert (Hv : u32 v) by (apply Z.mod_pos_bound; lia).
  rewrite <- app_assoc, take_app by apply le_length.
  pose proof (svb_code_range v). pose proof (svb_code_fits v Hv).
  rewrite of_le_le by (rewrite Z2Nat.id by lia; unfold u32 in Hv; lia).
  replace ((prev + v) mod 2 ^ 32) with x.
  - rewrite IH by auto. reflexivity.
  - unfold v. rewrite Z.add_mod_idemp_r by lia. replace (prev + (x - prev)) with x by lia.
    rewrite Z.mod_small; auto.
Qed.

Lemma encode_bytes l : Forall is_byte (svb_delta_encode l).
Proof.
  unfold svb_delta_encode. apply Forall_app. split.
  - apply control_is_byte. apply Forall_forall. intros c Hc. apply in_map_iff in Hc.
    destruct Hc as (v & <- & _). apply svb_code_range.
  - apply Forall_concat. apply Forall_forall. intros c Hc. apply in_map_iff in Hc.
    destruct Hc as (v & <- & _). apply le_bytes.
Qed.
Lemma encode_length l : (length (svb_delta_encode l) <= 5 * length l + 1)%nat.
Proof.
  unfold svb_delta_encode. rewrite app_length, control_length, map_length, deltas_length.
  assert (((length l + 3) / 4 <= length l + 1)%nat).
  { apply Nat.div_le_upper_bound; lia. }
  enough (length (concat (map (fun v => le (Z.to_nat (svb_code v + 1)) v) (deltas 0 l))) <= 4 * length (deltas 0 l))%nat
    by (rewrite deltas_length in *; lia).
  clear. induction (deltas 0 l) as [|v t IH]; cbn [map concat length]; [lia|].
  rewrite app_length, le_length. pose proof (svb_code_range v). lia.
Qed.

Theorem svb_round_trip l rest : Forall u32 l ->
  svb_delta_decode (svb_delta_encode l ++ rest) (length l) = Ok l.
Proof.
  intros H. unfold svb_delta_decode, svb_delta_encode. set (ds := deltas 0 l).
  set (cs := map svb_code ds).
  assert (Hn : length cs = length l) by (unfold cs, ds; rewrite map_length; apply deltas_length).
  assert (Hk : length (control_bytes cs) = ((length l + 3) / 4)%nat) by (rewrite control_length, Hn; auto).
  assert (Hc : Forall (fun c => 0 <= c <= 3) cs).
  { apply Forall_forall. intros c Hc. apply in_map_iff in Hc. destruct Hc as (v & <- & _). apply svb_code_range. }
  rewrite guard_true.
  2:{ apply Nat.leb_le. rewrite <- Hk, !app_length. lia. }
  cbn [bind]. rewrite (tabulateM_ok _ _ (fun i => nth i cs 0)).
  - cbn [bind]. rewrite <- Hn at 1. rewrite map_seq_nth. rewrite <- Hk, <- app_assoc.
    rewrite skipn_app, skipn_all, Nat.sub_diag. cbn [app skipn]. apply svb_data_ok; auto.
  - intros i Hi. assert (Hi' : (i < length cs)%nat) by lia.
    destruct (control_nth cs Hc i (nth i cs 0)) as (k & E1 & E2); [apply nth_error_nth'; auto|].
    rewrite <- app_assoc. rewrite (rd_some _ _ k).
    + cbn [bind]. rewrite E2. reflexivity.
    + rewrite nth_error_app1; auto. apply nth_error_Some. congruence.
Qed.

(** ** CSR *)
Definition nz (l : list word) : list (Z * word) :=
  filter (fun kx => negb (is_zero (snd kx))) (combine (map Z.of_nat (seq 0 (length l))) l).

Lemma nz_snoc l x : nz (l ++ [x]) = nz l ++ (if is_zero x then [] else [(Z.of_nat (length l), x)]).
Proof.
  unfold nz. rewrite app_length, Nat.add_comm. cbn [length plus]. rewrite seq_S, map_app. cbn [map plus].
  assert (E : forall (a : list Z) (b : list word) y z, length a = length b ->
              combine (a ++ [y]) (b ++ [z]) = combine a b ++ [(y, z)]).
  { induction a as [|u a IH]; intros [|v b] y z HL; try discriminate; cbn; [reflexivity|]. rewrite IH; auto. }
  rewrite E by (rewrite map_length, seq_length; auto).
  rewrite filter_app. f_equal. cbn [filter snd]. destruct (is_zero x); reflexivity.
Qed.

Lemma to_csr_eq m : mwf m -> (rows m <> 0 /\ cols m <> 0)%nat ->
  Z.of_nat (rows m) < 2 ^ 31 -> Z.of_nat (cols m) < 2 ^ 31 ->
  convert_to_csr m = Ok (map (fun kx => (fst kx mod 2 ^ 32, snd kx)) (nz (elts m))).
Proof.
  intros W (Hr & Hc) H1 H2. unfold convert_to_csr.
  rewrite check_true.
  2:{ destruct (Nat.eqb_spec (rows m) 0), (Nat.eqb_spec (cols m) 0); auto. }
  cbn [bind]. rewrite guard_true by lia. cbn [bind].
  set (F := fun n => map (fun kx : Z * word => (fst kx mod 2 ^ 32, snd kx)) (nz (firstn n (elts m)))).
  edestruct (loop_inv (rows m) 0 (fun i acc =>
    loop (cols m) 0 (fun j acc =>
      let* x := mget m i j in
      Ok (if is_zero x then acc
          else acc ++ [((Z.of_nat i * Z.of_nat (cols m) + Z.of_nat j) mod 2 ^ 32, x)])) acc)
    (fun i acc => acc = F (i * cols m)%nat) []) as (s & E & Hs).
  - reflexivity.
  - intros i s Hi ->.
    edestruct (loop_inv (cols m) 0 (fun j acc =>
      let* x := mget m (0 + i) j in
      Ok (if is_zero x then acc
          else acc ++ [((Z.of_nat (0 + i) * Z.of_nat (cols m) + Z.of_nat j) mod 2 ^ 32, x)]))
      (fun j acc => acc = F (i * cols m + j)%nat) (F (i * cols m)%nat)) as (s' & E' & Hs').
    + rewrite Nat.add_0_r. reflexivity.
    + intros j s Hj ->. eexists. split; [|reflexivity]. cbn [plus].
      assert (Hk : (i * cols m + j < rows m * cols m)%nat) by (apply idx_lt; auto).
      assert (Hn := nth_error_nth' (elts m) word_zero (n := (i * cols m + j)%nat)). unfold mwf in W.
      specialize (Hn ltac:(lia)).
      rewrite (mget_wf m i j word_zero W Hi Hj). cbn [bind]. f_equal.
      unfold F. rewrite Nat.add_succ_r. rewrite (firstn_snoc _ _ _ Hn), nz_snoc, map_app.
      set (x := nth _ _ _). rewrite firstn_length_le by lia.
      destruct (is_zero x); cbn [map fst snd]; [rewrite app_nil_r; reflexivity|].
      f_equal. f_equal. f_equal. f_equal. lia.
    + exists s'. split; [exact E'|]. rewrite Hs'. f_equal. lia.
  - rewrite E, Hs. unfold F. rewrite firstn_all2; [reflexivity|]. unfold mwf in W. lia.
Qed.

Definition lookup (es : list (Z * word)) (k : nat) : word :=
  match find (fun e => fst e =? Z.of_nat k) es with Some e => snd e | None => word_zero end.

Lemma lookup_snoc es e k : ~ In (fst e) (map fst es) ->
  lookup (es ++ [e]) k = if fst e =? Z.of_nat k then snd e else lookup es k.
Proof.
  intros Hn. unfold lookup. induction es as [|a es IH].
  - cbn [app find]. destruct (fst e =? Z.of_nat k); reflexivity.
  - cbn [app find]. cbn [map In] in Hn. destruct (Z.eqb_spec (fst a) (Z.of_nat k)) as [Ea|].
    + destruct (Z.eqb_spec (fst e) (Z.of_nat k)); [|reflexivity]. exfalso. apply Hn. left. congruence.
    + apply IH. tauto.
Qed.

Lemma from_csr_eq es (r c : nat) : Z.of_nat r * Z.of_nat c < 2 ^ 64 ->
  NoDup (map fst es) ->
  Forall (fun e => 0 <= fst e < Z.of_nat r * Z.of_nat c) es ->
  convert_from_csr (map fst es) (map snd es) (Z.of_nat r) (Z.of_nat c)
  = Ok (Mat r c (map (lookup es) (seq 0 (r * c)))).
Proof.
  intros Hsz HN HR. unfold convert_from_csr. rewrite guard_true by lia. cbn [bind]. rewrite map_length, !Nat2Z.id.
  edestruct (loop_inv (length es) 0 (fun i m =>
    let* idx := rd (map fst es) i in
    let* _ := guard (negb (Z.of_nat c =? 0)) in
    let* v := rd (map snd es) i in
    mset m (Z.to_nat (idx / Z.of_nat c)) (Z.to_nat (idx mod Z.of_nat c)) v)
    (fun i m => m = Mat r c (map (lookup (firstn i es)) (seq 0 (r * c))))
    (Mat r c (repeat word_zero (r * c)))) as (s & -> & ->).
  - f_equal. cbn [firstn]. unfold lookup. cbn [find].
    clear. generalize 0%nat. induction (r * c)%nat; intros; cbn; congruence.
  - intros i s Hi ->. cbn [plus].
    destruct (nth_error es i) as [e|] eqn:Ee; [|apply nth_error_None in Ee; lia].
    rewrite (rd_some _ _ (fst e)) by (rewrite nth_error_map, Ee; reflexivity). cbn [bind].
    assert (He : 0 <= fst e < Z.of_nat r * Z.of_nat c).
    { rewrite Forall_forall in HR. apply HR. eapply nth_error_In; eauto. }
    rewrite guard_true by lia. cbn [bind].
    rewrite (rd_some _ _ (snd e)) by (rewrite nth_error_map, Ee; reflexivity). cbn [bind].
    assert (Hd : (Z.to_nat (fst e / Z.of_nat c) < r)%nat).
    { assert (fst e / Z.of_nat c < Z.of_nat r) by (apply Z.div_lt_upper_bound; lia).
      assert (0 <= fst e / Z.of_nat c) by (apply Z.div_pos; lia). lia. }
    assert (Hm : (Z.to_nat (fst e mod Z.of_nat c) < c)%nat).
    { pose proof (Z.mod_pos_bound (fst e) (Z.of_nat c)). lia. }
    assert (Hflat : (Z.to_nat (fst e / Z.of_nat c) * c + Z.to_nat (fst e mod Z.of_nat c))%nat = Z.to_nat (fst e)).
    { pose proof (Z.div_mod (fst e) (Z.of_nat c)). pose proof (Z.mod_pos_bound (fst e) (Z.of_nat c)).
      assert (0 <= fst e / Z.of_nat c) by (apply Z.div_pos; lia). nia. }
    unfold mset. cbn [rows cols elts]. rewrite guard_true by lia. cbn [bind]. rewrite Hflat.
    rewrite wr_lt by (rewrite map_length, seq_length; lia). cbn [bind].
    eexists. split; [reflexivity|]. f_equal.
    assert (HN' : ~ In (fst e) (map fst (firstn i es))).
    { intros Hin. rewrite <- (firstn_skipn (S i) es), (firstn_snoc _ _ _ Ee), map_app, map_app in HN.
      cbn [map] in HN. rewrite <- app_assoc in HN. apply NoDup_remove_2 in HN. apply HN. apply in_or_app. auto. }
    apply nth_error_ext_eq.
    + rewrite upd_length, !map_length. reflexivity.
    + intros k x y Hx Hy. assert (Hk : (k < r * c)%nat).
      { rewrite <- (seq_length (r * c) 0), <- (map_length (lookup (firstn (S i) es))). apply nth_error_Some. congruence. }
      rewrite nth_error_map_seq in Hy by auto. assert (Ey : y = lookup (firstn (S i) es) k) by congruence. subst y. clear Hy.
      rewrite (firstn_snoc _ _ _ Ee), lookup_snoc by auto.
      destruct (Z.eqb_spec (fst e) (Z.of_nat k)) as [E|E].
      * rewrite E, Nat2Z.id in Hx. rewrite upd_nth_eq in Hx; [congruence|].
        rewrite map_length, seq_length. auto.
      * rewrite upd_nth_neq in Hx by lia. rewrite nth_error_map_seq in Hx by auto. congruence.
  - rewrite firstn_all. reflexivity.
Qed.

(** the entries of nz *)
Lemma nz_gen (q : word -> word) l : forall a k,
  lookup (map (fun e => (fst e, q (snd e)))
    (filter (fun kx => negb (is_zero (snd kx))) (combine (map Z.of_nat (seq a (length l))) l))) (a + k)
  = match nth_error l k with Some x => clean q x | None => word_zero end.
Proof.
  induction l as [|x l IH]; intros a k.
  - destruct k; reflexivity.
  - cbn [length seq map combine filter snd].
    assert (Hlow : forall l a k, (k < a)%nat -> lookup (map (fun e => (fst e, q (snd e)))
        (filter (fun kx => negb (is_zero (snd kx))) (combine (map Z.of_nat (seq a (length l))) l))) k = word_zero).
    { clear. induction l as [|y l IH]; intros a k Hk; [reflexivity|].
      cbn [length seq map combine filter snd]. destruct (is_zero y); cbn [negb]; [apply IH; lia|].
      unfold lookup. cbn [map find fst]. destruct (Z.eqb_spec (Z.of_nat a) (Z.of_nat k)); [lia|].
      exact (IH (S a) k ltac:(lia)). }
    destruct k as [|k].
    + rewrite Nat.add_0_r. cbn [nth_error]. unfold clean. destruct (is_zero x); cbn [negb].
      * apply (Hlow l (S a) a). lia.
      * unfold lookup. cbn [map find fst snd]. rewrite Z.eqb_refl. reflexivity.
    + replace (a + S k)%nat with (S a + k)%nat by lia. cbn [nth_error].
      destruct (is_zero x); cbn [negb]; [apply IH|].
      rewrite <- (IH (S a) k). unfold lookup. cbn [map find fst snd].
      destruct (Z.eqb_spec (Z.of_nat a) (Z.of_nat (S a + k))); [lia|]. reflexivity.
Qed.

Definition nzq (q : word -> word) (l : list word) := map (fun e => (fst e, q (snd e))) (nz l).
Lemma lookup_nz q l : map (lookup (nzq q l)) (seq 0 (length l)) = map (clean q) l.
Proof.
  apply nth_error_ext_eq; [rewrite !map_length, seq_length; auto|].
  intros k x y Hx Hy. assert (Hk : (k < length l)%nat).
  { rewrite <- (map_length (clean q)). apply nth_error_Some. congruence. }
  rewrite nth_error_map_seq in Hx by auto. inversion Hx; subst x; clear Hx.
  unfold nzq, nz. change (lookup _ k) with (lookup (map (fun e => (fst e, q (snd e)))
    (filter (fun kx => negb (is_zero (snd kx))) (combine (map Z.of_nat (seq 0 (length l))) l))) (0 + k)).
  rewrite nz_gen. rewrite nth_error_map in Hy. destruct (nth_error l k); cbn in Hy; congruence.
Qed.

(** the indexes of nz are strictly increasing positions of non-zero elements *)
Lemma nz_in l e : In e (nz l) -> exists k x, e = (Z.of_nat k, x) /\ nth_error l k = Some x /\ is_zero x = false.
Proof.
  unfold nz. intros H. apply filter_In in H. destruct H as [H1 H2].
  apply In_nth_error in H1. destruct H1 as (i & Hi).
  assert (E : forall (a : list Z) (b : list word) i e, nth_error (combine a b) i = Some e ->
     nth_error a i = Some (fst e) /\ nth_error b i = Some (snd e)).
  { clear. induction a as [|y a IH]; intros [|z b] [|i] e H; try discriminate; cbn in *.
    - inversion H; auto. - apply IH; auto. }
  apply E in Hi. destruct Hi as [Ha Hb]. exists i, (snd e).
  assert (i < length l)%nat by (apply nth_error_Some; congruence).
  rewrite nth_error_map, nth_error_seq in Ha by auto. cbn in Ha. destruct e as [u v]; cbn in *.
  split; [congruence|]. split; auto. apply negb_true_iff in H2. auto.
Qed.

Require Import Sorting.Sorted.
Lemma nz_sorted l : StronglySorted Z.lt (map fst (nz l)).
Proof.
  unfold nz. generalize 0%nat. induction l as [|x l IH]; intros a; [constructor|].
  cbn [length seq map combine filter snd].
  destruct (is_zero x); cbn [negb]; [apply IH|]. cbn [map fst]. constructor; [apply IH|].
  apply Forall_forall. intros z Hz. apply in_map_iff in Hz. destruct Hz as ([u v] & <- & Hin).
  apply filter_In in Hin. destruct Hin as [Hin _]. apply in_combine_l in Hin.
  apply in_map_iff in Hin. destruct Hin as (k & <- & Hk). apply in_seq in Hk. cbn. lia.
Qed.
Lemma sorted_nodup l : StronglySorted Z.lt l -> NoDup l.
Proof.
  induction 1 as [|a l H IH Ha]; constructor; auto. intros Hin. rewrite Forall_forall in Ha.
  specialize (Ha _ Hin). lia.
Qed.
Lemma nz_length l : (length (nz l) <= length l)%nat.
Proof.
  unfold nz. assert (F : forall {X} (f : X -> bool) y, (length (filter f y) <= length y)%nat).
  { induction y; cbn; [lia|]. destruct (f a); cbn; lia. }
  eapply Nat.le_trans; [apply F|]. rewrite combine_length. lia.
Qed.
Lemma nzq_fst q l : map fst (nzq q l) = map fst (nz l).
Proof. unfold nzq. rewrite map_map. reflexivity. Qed.
Lemma nzq_snd q l : map snd (nzq q l) = map q (map snd (nz l)).
Proof. unfold nzq. rewrite !map_map. reflexivity. Qed.

Lemma from_csr_nz q m : mwf m -> Z.of_nat (rows m) * Z.of_nat (cols m) < 2 ^ 64 ->
  convert_from_csr (map fst (nz (elts m))) (map q (map snd (nz (elts m))))
    (Z.of_nat (rows m)) (Z.of_nat (cols m)) = Ok (map_mat (clean q) m).
Proof.
  intros W Hsz. rewrite <- (nzq_fst q), <- nzq_snd. rewrite from_csr_eq; auto.
  - unfold map_mat. f_equal. f_equal. rewrite <- lookup_nz. rewrite W. reflexivity.
  - rewrite nzq_fst. apply sorted_nodup, nz_sorted.
  - apply Forall_forall. intros e He. unfold nzq in He. apply in_map_iff in He.
    destruct He as (e' & <- & He). apply nz_in in He. destruct He as (k & x & -> & Hk & _). cbn [fst].
    assert (k < length (elts m))%nat by (apply nth_error_Some; congruence). unfold mwf in W. nia.
Qed.

Lemma nz_mod m : mwf m -> Z.of_nat (rows m) * Z.of_nat (cols m) <= 2 ^ 32 ->
  map (fun kx => (fst kx mod 2 ^ 32, snd kx)) (nz (elts m)) = nz (elts m).
Proof.
  intros W H. rewrite <- map_id. apply map_ext_in. intros e He. apply nz_in in He.
  destruct He as (k & x & -> & Hk & _). cbn [fst snd]. f_equal. apply Z.mod_small.
  assert (k < length (elts m))%nat by (apply nth_error_Some; congruence). unfold mwf in W. nia.
Qed.
