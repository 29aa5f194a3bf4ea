(** * P_Image *)
Require Import List Bool Arith ZArith Lia.
Require Import ZifyBool.
Require Import Verif.M_Base Verif.M_Params Verif.M_Buffer Verif.M_View Verif.M_Denoise Verif.M_Equal Verif.M_Archive
  Verif.M_Serializer Verif.M_Image Verif.S_Params Verif.S_Buffer Verif.S_Image Verif.S_Serializer
  Verif.P_Base Verif.P_Api Verif.P_Api2 Verif.P_Denoise Verif.P_Archive Verif.P_Serializer Verif.P_Blob.
Import ListNotations.
Open Scope nat_scope.

Section Codec.
Context {T : Type}.
Variable lib : jpeg.
Variables (to_px : T -> Z) (of_px : Z -> T) (quality : Z).

Lemma grow_length (im : list (mat T)) n : length (grow im n) = Nat.max (length im) n.
Proof.
  unfold grow, resize_dec. destruct (Nat.ltb_spec (length im) n); [|lia].
  rewrite app_length, firstn_length, repeat_length. lia.
Qed.
Lemma grow_old (im : list (mat T)) n i : i < length im -> nth_error (grow im n) i = nth_error im i.
Proof.
  intros H. unfold grow, resize_dec. destruct (Nat.ltb_spec (length im) n); auto.
  rewrite firstn_all2 by lia. apply nth_error_app1. auto.
Qed.
Lemma grow_new (im : list (mat T)) n i : length im <= i < n -> nth_error (grow im n) i = Some mempty.
Proof.
  intros H. unfold grow, resize_dec. destruct (Nat.ltb_spec (length im) n); [|lia].
  rewrite firstn_all2 by lia. rewrite nth_error_app2 by lia. apply nth_error_repeat. lia.
Qed.

Lemma offset_lt w h n x y k : x < w -> y < h -> k < n -> x + y * w + k * (w * h) < n * (w * h).
Proof. intros. assert (y * w + x < h * w) by nia. nia. Qed.

Lemma pixel_cget img x y k : cimg_wf img -> x < cwidth img -> y < cheight img -> k < cspectrum img ->
  exists v, cget img x y k = Ok v /\ pixel img x y k = Some v.
Proof.
  intros W Hx Hy Hk. pose proof (offset_lt _ _ _ _ _ _ Hx Hy Hk) as HL. unfold cget, rd, pixel.
  replace (k * (cwidth img * cheight img) + y * cwidth img + x)
    with (x + y * cwidth img + k * (cwidth img * cheight img)) by lia.
  destruct (nth_error (cpixels img) _) as [v|] eqn:E; [exists v; auto|].
  apply nth_error_None in E. unfold cimg_wf in W. lia.
Qed.

Lemma decode_ok n blob (image : list (mat T)) start img :
  blob <> [] -> jload lib blob = Some img -> cimg_wf img -> n <= cspectrum img ->
  exists image', decode_channels lib of_px n blob image start = Ok (true, image') /\
    decoded of_px n img image start image'.
Proof.
  intros Hb Hl W Hn. unfold decode_channels. destruct blob as [|z blob]; [congruence|]. rewrite Hl.
  match goal with |- exists _, bind (loop n start ?body ?s0) _ = _ /\ _ =>
    destruct (loop_inv n start body (fun k im =>
      length im = Nat.max (length image) (start + n) /\
      (forall i, i < start \/ start + k <= i -> nth_error im i = nth_error s0 i) /\
      (forall j, j < k -> exists m, nth_error im (start + j) = Some m /\
         length (elts m) = rows m * cols m /\ rows m = cheight img /\ cols m = cwidth img /\
         forall x y, x < cwidth img -> y < cheight img ->
           exists v, pixel img x y j = Some v /\ mget m y x = Ok (of_px v))) s0) as (im & E & HL & HF & HC)
  end.
  - rewrite grow_length. split; [auto|]. split; [auto|]. intros; lia.
  - intros k im Hk (HL & HF & HC).
    replace (start + k - start) with k by lia.
    set (g := fun i j => of_px (nth (j + i * cwidth img + k * (cwidth img * cheight img)) (cpixels img) 0%Z)).
    rewrite (mbuildM_ok _ _ _ g).
    2:{ intros i j Hi Hj. destruct (pixel_cget img j i k) as (v & E & _); auto; [lia|]. rewrite E. cbn [bind].
        unfold g. unfold cget, rd in E. destruct (nth_error _ _) eqn:E'; [|discriminate].
        rewrite (nth_error_nth _ _ _ E'). congruence. }
    cbn [bind]. rewrite wr_lt by lia. eexists. split; [reflexivity|]. split; [|split].
    + rewrite upd_length. auto.
    + intros i Hi. rewrite upd_nth_neq by lia. apply HF. lia.
    + intros j Hj. destruct (Nat.eq_dec j k) as [->|Hne].
      * exists (mk (cheight img) (cwidth img) g). split; [apply upd_nth_eq; lia|].
        split; [apply mk_wf|]. split; [reflexivity|]. split; [reflexivity|].
        intros x y Hx Hy. destruct (pixel_cget img x y k) as (v & E & Ep); auto; [lia|].
        exists v. split; [auto|]. rewrite mget_mk by auto. unfold g. f_equal. f_equal.
        unfold cget, rd in E. destruct (nth_error _ _) eqn:E'; [|discriminate].
        rewrite (nth_error_nth _ _ _ E'). congruence.
      * destruct (HC j) as (m & E & R); [lia|]. exists m. split; [|exact R].
        rewrite upd_nth_neq by lia. exact E.
  - rewrite E. cbn [bind]. exists im. split; [reflexivity|]. split; [exact HL|]. split; [|split].
    + intros i Hi Ho. rewrite HF by auto. apply grow_old. auto.
    + intros i Hi. rewrite HF by lia. apply grow_new. lia.
    + exact HC.
Qed.

Lemma decode_refused n blob (image : list (mat T)) start :
  (blob = [] \/ jload lib blob = None) -> decode_channels lib of_px n blob image start = Ok (false, image).
Proof.
  intros H. unfold decode_channels. destruct blob as [|z blob]; auto.
  destruct H as [H|H]; [congruence|]. rewrite H. reflexivity.
Qed.

Lemma mapM_ub {X Y} (f : X -> res Y) l x : In x l -> (forall y, In y l -> f y <> Throw) -> f x = UB -> mapM f l = UB.
Proof.
  induction l as [|y l IH]; [intros []|]. intros Hin HT Hx. cbn [mapM].
  destruct (f y) as [v| |] eqn:Ey; auto.
  - destruct Hin as [->|Hin]; [congruence|]. cbn [bind]. rewrite IH; auto. intros; apply HT; right; auto.
  - exfalso. apply (HT y); auto. left; auto.
Qed.

Lemma decode_unsafe n blob (image : list (mat T)) start img :
  blob <> [] -> jload lib blob = Some img -> cimg_wf img -> cspectrum img < n ->
  cwidth img <> 0 -> cheight img <> 0 ->
  decode_channels lib of_px n blob image start = UB.
Proof.
  intros Hb Hl W Hn H1 H2. unfold decode_channels. destruct blob as [|z blob]; [congruence|]. rewrite Hl.
  assert (G : forall k im0, start <= k -> cspectrum img <= k - start ->
     (let* m := mbuildM (cheight img) (cwidth img) (fun i j => let* v := cget img j i (k - start) in Ok (of_px v)) in
      wr im0 k m) = UB).
  { intros k im0 Hk Hs. unfold mbuildM.
    rewrite (mapM_ub _ _ 0); [reflexivity| | |].
    - apply in_seq. nia.
    - intros y _. unfold cget, rd. destruct (nth_error _ _); cbn; congruence.
    - rewrite Nat.div_0_l, Nat.mod_0_l by auto. unfold cget, rd.
      rewrite (proj2 (nth_error_None _ _)); [reflexivity|]. unfold cimg_wf in W. rewrite W. nia. }
  generalize (grow image (start + n)) as im1. intros im1.
  replace n with (cspectrum img + S (n - cspectrum img - 1)) by lia.
  rewrite loop_app. 
  match goal with |- bind (bind ?l _) _ = UB => assert (l <> Throw) as HT; [|destruct l as [im2| |]; cbn [bind]; auto; [|congruence]] end.
  - assert (GT : forall m0 st im0, loop m0 st (fun ch im =>
       let* m := mbuildM (cheight img) (cwidth img) (fun i j => let* v := cget img j i (ch - start) in Ok (of_px v)) in
       wr im ch m) im0 <> Throw).
    { clear. induction m0 as [|m0 IH]; intros st im0; cbn [loop]; [congruence|].
      unfold mbuildM. 
      assert (E : forall l f, mapM (fun k => let* v := cget img (k mod cwidth img) (k / cwidth img) f in Ok (of_px v)) l <> Throw).
      { induction l as [|x l IHl]; intros f; cbn [mapM]; [congruence|].
        unfold cget at 1, rd at 1. destruct (nth_error _ _); cbn [bind]; [|congruence].
        specialize (IHl f). destruct (mapM _ l); cbn [bind]; congruence. }
      specialize (E (seq 0 (cheight img * cwidth img)) (st - start)).
      destruct (mapM _ _); cbn [bind]; try congruence.
      unfold wr at 1. destruct (st <? length im0); cbn [bind]; [apply IH|congruence]. }
    apply GT.
  - cbn [loop]. rewrite G by lia. reflexivity.
Qed.

(** ** Encode *)
Lemma rd_ge {X} (l : list X) i : i < length l -> exists x, rd l i = Ok x /\ nth_error l i = Some x.
Proof.
  intros H. unfold rd. destruct (nth_error l i) as [x|] eqn:E; [exists x; auto|]. apply nth_error_None in E. lia.
Qed.

Lemma check3_iff (image : list (mat T)) start :
  exists r, check3 image start = Ok r /\ (r = true <-> encodable 3 image start).
Proof.
  unfold check3. destruct (Nat.ltb_spec (length image) (3 + start)) as [L|L].
  - exists false. split; [auto|]. split; [discriminate|]. intros (r & c & _ & _ & H).
    destruct (H 2) as (m & E & _); [lia|]. assert (start + 2 < length image) by (apply nth_error_Some; congruence). lia.
  - destruct (rd_ge image start) as (c0 & E0 & N0); [lia|]. rewrite E0. cbn [bind].
    destruct (rd_ge image (start + 1)) as (c1 & E1 & N1); [lia|]. rewrite E1. cbn [bind].
    destruct (rd_ge image (start + 2)) as (c2 & E2 & N2); [lia|].
    assert (Hk : forall r c, (forall k, k < 3 -> exists m, nth_error image (start + k) = Some m /\ rows m = r /\ cols m = c) <->
      (rows c0 = r /\ cols c0 = c /\ rows c1 = r /\ cols c1 = c /\ rows c2 = r /\ cols c2 = c)).
    { intros r c. split.
      - intros H. destruct (H 0) as (m0 & M0 & R0 & C0); [lia|]. destruct (H 1) as (m1 & M1 & R1 & C1); [lia|].
        destruct (H 2) as (m2 & M2 & R2 & C2); [lia|]. rewrite Nat.add_0_r in M0.
        assert (m0 = c0) by congruence. assert (m1 = c1) by congruence. assert (m2 = c2) by congruence. subst. auto 10.
      - intros (? & ? & ? & ? & ? & ?) k Hk. destruct k as [|[|[|k]]]; [| | |lia].
        + rewrite Nat.add_0_r. eauto.
        + eauto.
        + eauto. }
    unfold encodable.
    destruct ((rows c1 =? rows c0) && (cols c1 =? cols c0)) eqn:B1; cbn [negb].
    + rewrite E2. cbn [bind]. destruct ((rows c2 =? rows c0) && (cols c2 =? cols c0)) eqn:B2; cbn [negb].
      * eexists. split; [reflexivity|]. split.
        -- intros H. exists (rows c0), (cols c0). split; [lia|]. split; [lia|]. apply Hk. lia.
        -- intros (r & c & H1 & H2 & H3). apply Hk in H3. lia.
      * exists false. split; [auto|]. split; [discriminate|]. intros (r & c & H1 & H2 & H3). apply Hk in H3. lia.
    + exists false. split; [auto|]. split; [discriminate|]. intros (r & c & H1 & H2 & H3). apply Hk in H3. lia.
Qed.

Lemma check1_iff (image : list (mat T)) start :
  exists r, check1 image start = Ok r /\ (r = true <-> encodable 1 image start).
Proof.
  unfold check1, encodable. destruct (Nat.ltb_spec (length image) (start + 1)) as [L|L].
  - exists false. split; [auto|]. split; [discriminate|]. intros (r & c & _ & _ & H).
    destruct (H 0) as (m & E & _); [lia|]. assert (start + 0 < length image) by (apply nth_error_Some; congruence). lia.
  - destruct (rd_ge image start) as (c0 & E0 & N0); [lia|]. rewrite E0. cbn [bind].
    eexists. split; [reflexivity|]. split.
    + intros H. exists (rows c0), (cols c0). split; [nia|]. split; [nia|].
      intros k Hk. exists c0. replace (start + k) with start by lia. auto.
    + intros (r & c & H1 & H2 & H3). destruct (H3 0) as (m & E & R & C); [lia|].
      rewrite Nat.add_0_r in E. assert (m = c0) by congruence. subst. nia.
Qed.

Lemma concat_length_eq {X} (ls : list (list X)) w : (forall l, In l ls -> length l = w) ->
  length (concat ls) = length ls * w.
Proof.
  induction ls as [|l ls IH]; intros H; cbn [concat length]; [lia|].
  rewrite app_length, (H l) by (left; auto). rewrite IH by (intros; apply H; right; auto). lia.
Qed.
Lemma concat_nth {X} (ls : list (list X)) w : (forall l, In l ls -> length l = w) ->
  forall i j l, nth_error ls i = Some l -> j < w -> nth_error (concat ls) (i * w + j) = nth_error l j.
Proof.
  induction ls as [|l0 ls IH]; intros H i j l Hi Hj; [destruct i; discriminate|]. cbn [concat].
  destruct i as [|i]; cbn [nth_error] in Hi.
  - inversion Hi; subst. rewrite nth_error_app1; [reflexivity|]. rewrite (H l) by (left; auto). lia.
  - rewrite nth_error_app2 by (rewrite (H l0) by (left; auto); nia).
    replace (S i * w + j - length l0) with (i * w + j) by (rewrite (H l0) by (left; auto); nia).
    apply IH; auto. intros; apply H; right; auto.
Qed.

Lemma nth_map_seq' {X} (f : nat -> X) n i : i < n -> nth_error (map f (seq 0 n)) i = Some (f i).
Proof. intros. rewrite nth_error_map_seq by auto. reflexivity. Qed.

Lemma encode_ok n chk (image : list (mat T)) start :
  Forall mwf image -> 1 <= n -> chk image start = Ok true -> encodable n image start ->
  exists img size, shows to_px n image start img /\
    encode_channels lib to_px quality n chk image start = let* bytes := jsave lib img size quality in Ok (Some bytes).
Proof.
  intros W Hn Hc (r & c & Hr & Hcc & H).
  destruct (H 0 ltac:(lia)) as (m0 & N0 & R0 & C0). rewrite Nat.add_0_r in N0.
  assert (HW : forall m, In m image -> mwf m) by (apply Forall_forall; exact W).
  assert (Inh : exists d : T, True).
  { pose proof (HW m0 (nth_error_In _ _ N0)) as W0. unfold mwf in W0.
    destruct (elts m0) as [|d ?]; [cbn in W0; nia|exists d; auto]. }
  destruct Inh as (d & _).
  set (g := fun k => nth (start + k) image mempty).
  assert (Hg : forall k, k < n -> nth_error image (start + k) = Some (g k) /\ rows (g k) = r /\ cols (g k) = c /\ mwf (g k)).
  { intros k Hk. destruct (H k Hk) as (m & E & R & C). unfold g. rewrite (nth_error_nth _ _ _ E).
    repeat split; auto. apply HW. eapply nth_error_In; eauto. }
  set (px := fun k i j => to_px (nth (i * c + j) (elts (g k)) d)).
  set (line := fun k i => map (px k i) (seq 0 c)).
  set (plane := fun k => concat (map (line k) (seq 0 r))).
  set (img := CImg c r n (concat (map plane (seq 0 n)))).
  assert (Ll : forall k i, length (line k i) = c) by (intros; unfold line; rewrite map_length, seq_length; auto).
  assert (Lp : forall k, length (plane k) = c * r).
  { intros k. unfold plane. rewrite (concat_length_eq _ c); [rewrite map_length, seq_length; lia|].
    intros l Hin. apply in_map_iff in Hin as (i & <- & _). auto. }
  exists img. eexists. split.
  - split; [reflexivity|]. split.
    + unfold cimg_wf, img; cbn [cpixels cwidth cheight cspectrum].
      rewrite (concat_length_eq _ (c * r)); [rewrite map_length, seq_length; lia|].
      intros l Hin. apply in_map_iff in Hin as (i & <- & _). auto.
    + intros k Hk. destruct (Hg k Hk) as (E & R & C & Wk). exists (g k). unfold img; cbn [cwidth cheight].
      repeat split; auto. intros x y Hx Hy. exists (nth (y * c + x) (elts (g k)) d). split.
      * rewrite <- C. apply mget_wf; auto; lia.
      * unfold pixel. cbn [cpixels cwidth cheight].
        rewrite <- Nat.add_assoc. rewrite (concat_nth _ (c * r) ltac:(intros l Hin; apply in_map_iff in Hin as (i & <- & _); auto) k (y * c + x) (plane k));
          [|apply nth_map_seq'; auto|nia].
        unfold plane. rewrite (concat_nth _ c ltac:(intros l Hin; apply in_map_iff in Hin as (i & <- & _); auto) y x (line k y));
          [|apply nth_map_seq'; auto|auto].
        unfold line. rewrite nth_map_seq' by auto. reflexivity.
  - unfold encode_channels. rewrite Hc. cbn [bind negb].
    rewrite (rd_some _ _ _ N0). cbn [bind]. rewrite R0, C0.
    rewrite (tabulateM_ok _ _ plane).
    + cbn [bind]. fold img. reflexivity.
    + intros k Hk. destruct (Hg k Hk) as (E & R & C & Wk). rewrite (rd_some _ _ _ E). cbn [bind].
      rewrite (tabulateM_ok _ _ (line k)); [reflexivity|].
      intros i Hi. unfold line. rewrite (tabulateM_ok _ _ (px k i)); [reflexivity|].
      intros j Hj. rewrite (mget_wf _ _ _ d) by (auto; lia). cbn [bind]. unfold px. rewrite C. reflexivity.
Qed.

Lemma encode_refused n chk (image : list (mat T)) start :
  chk image start = Ok false -> encode_channels lib to_px quality n chk image start = Ok None.
Proof. intros E. unfold encode_channels. rewrite E. reflexivity. Qed.

(** ** Conversion of all pixels *)
Lemma convert_ok f (image : list (mat T)) start a b c :
  nth_error image start = Some a -> nth_error image (start + 1) = Some b -> nth_error image (start + 2) = Some c ->
  mwf a -> mwf b -> mwf c -> rows b = rows a -> rows c = rows a -> cols b = cols a -> cols c = cols a ->
  exists image', convert f image start = Ok image' /\ pixelwise f image start image'.
Proof.
  intros Na Nb Nc Wa Wb Wc Rb Rc Cb Cc.
  assert (HL : start + 2 < length image) by (apply nth_error_Some; congruence).
  unfold convert. rewrite guard_true by lia. cbn [bind]. rewrite (rd_some _ _ _ Na). cbn [bind].
  set (r := rows a) in *. set (w := cols a) in *.
  set (Inv := fun (done : nat -> nat -> bool) (im : list (mat T)) =>
    length im = length image /\
    (forall i, i < start \/ start + 3 <= i -> nth_error im i = nth_error image i) /\
    exists a' b' c', nth_error im start = Some a' /\ nth_error im (start + 1) = Some b' /\ nth_error im (start + 2) = Some c' /\
      (mwf a' /\ rows a' = r /\ cols a' = w) /\ (mwf b' /\ rows b' = r /\ cols b' = w) /\ (mwf c' /\ rows c' = r /\ cols c' = w) /\
      forall y x, y < r -> x < w -> exists u v t, mget a y x = Ok u /\ mget b y x = Ok v /\ mget c y x = Ok t /\
        (let e := if done y x then f u v t else (u, v, t) in
         mget a' y x = Ok (fst (fst e)) /\ mget b' y x = Ok (snd (fst e)) /\ mget c' y x = Ok (snd e))).
  match goal with |- exists im', loop r 0 ?body image = Ok im' /\ _ =>
    destruct (loop_inv r 0 body (fun y => Inv (fun i j => i <? y)) image) as (im & E & I) end.
  - split; [auto|]. split; [auto|]. exists a, b, c. repeat (split; [solve [auto]|]).
    intros y x Hy Hx. 
    assert (G : forall m : mat T, mwf m -> rows m = r -> cols m = w -> exists u, mget m y x = Ok u).
    { intros m W R C. unfold mget. replace ((y <? rows m) && (x <? cols m)) with true by lia.
      destruct (rd_ge (elts m) (y * cols m + x)) as (u & Eu & _); [rewrite W, R, C; nia|]. eauto. }
    destruct (G a) as (u & Eu); auto. destruct (G b) as (v & Ev); auto. destruct (G c) as (t & Et); auto.
    exists u, v, t. cbn. auto 10.
  - intros y im Hy I. cbn [Nat.add].
    match goal with |- exists im0, loop w 0 ?body im = Ok im0 /\ _ =>
      destruct (loop_inv w 0 body (fun x => Inv (fun i j => (i <? y) || ((i =? y) && (j <? x)))) im) as (im' & E & I') end.
    + destruct I as (L & F & a' & b' & c' & A1 & A2 & A3 & A4 & A5 & A6 & A7).
      split; [auto|]. split; [auto|]. exists a', b', c'. repeat (split; [solve [auto]|]).
      intros i j Hi Hj. destruct (A7 i j Hi Hj) as (u & v & t & E1 & E2 & E3 & E4). exists u, v, t.
      repeat (split; [solve [auto]|]). 
      replace ((i <? y) || (i =? y) && (j <? 0)) with (i <? y); [exact E4|].
      destruct (i <? y), (i =? y), (j <? 0) eqn:Ej; auto; apply Nat.ltb_lt in Ej; lia.
    + intros x im1 Hx (L & F & a' & b' & c' & A1 & A2 & A3 & (Wa' & Ra' & Ca') & (Wb' & Rb' & Cb') & (Wc' & Rc' & Cc') & A7).
      cbn [Nat.add]. destruct (A7 y x Hy Hx) as (u & v & t & E1 & E2 & E3 & E4).
      replace ((y <? y) || (y =? y) && (x <? x)) with false in E4 by lia. cbn in E4. destruct E4 as (E4 & E5 & E6).
      rewrite (rd_some _ _ _ A1). cbn [bind]. rewrite (rd_some _ _ _ A2). cbn [bind]. rewrite (rd_some _ _ _ A3). cbn [bind].
      rewrite E4, E5, E6. cbn [bind].
      destruct (f u v t) as [[h s] l] eqn:Ef.
      destruct (mset_ok a' y x h Wa') as (a2 & Sa & Wa2 & Ra2 & Ca2 & Ga); [lia|lia|].
      destruct (mset_ok b' y x s Wb') as (b2 & Sb & Wb2 & Rb2 & Cb2 & Gb); [lia|lia|].
      destruct (mset_ok c' y x l Wc') as (c2 & Sc & Wc2 & Rc2 & Cc2 & Gc); [lia|lia|].
      rewrite Sa. cbn [bind]. rewrite wr_lt by lia. cbn [bind]. rewrite Sb. cbn [bind].
      rewrite wr_lt by (rewrite upd_length; lia). cbn [bind]. rewrite Sc. cbn [bind].
      rewrite wr_lt by (rewrite !upd_length; lia).
      eexists. split; [reflexivity|]. split; [|split].
      * rewrite !upd_length. auto.
      * intros i Hi. rewrite !upd_nth_neq by lia. apply F. lia.
      * exists a2, b2, c2. split; [|split; [|split]].
        -- rewrite !upd_nth_neq by lia. apply upd_nth_eq. lia.
        -- rewrite upd_nth_neq by lia. apply upd_nth_eq. rewrite upd_length. lia.
        -- apply upd_nth_eq. rewrite !upd_length. lia.
        -- split; [split; [auto|lia]|]. split; [split; [auto|lia]|]. split; [split; [auto|lia]|].
           intros i j Hi Hj. rewrite Ga, Gb, Gc.
           destruct (A7 i j Hi Hj) as (u' & v' & t' & F1 & F2 & F3 & F4).
           exists u', v', t'. repeat (split; [solve [auto]|]).
           destruct ((i =? y) && (j =? x)) eqn:Eq.
           ++ assert (i = y) by lia. assert (j = x) by lia. subst i j.
              assert (u' = u) by congruence. assert (v' = v) by congruence. assert (t' = t) by congruence. subst.
              replace ((y <? y) || (y =? y) && (x <? S x)) with true by lia. rewrite Ef. cbn. auto.
           ++ replace ((i <? y) || (i =? y) && (j <? S x)) with ((i <? y) || (i =? y) && (j <? x)) by lia. exact F4.
    + rewrite E. exists im'. split; [reflexivity|].
      destruct I' as (L & F & a' & b' & c' & A1 & A2 & A3 & A4 & A5 & A6 & A7).
      split; [auto|]. split; [auto|]. exists a', b', c'. repeat (split; [solve [auto]|]).
      intros i j Hi Hj. destruct (A7 i j Hi Hj) as (u & v & t & E1 & E2 & E3 & E4). exists u, v, t.
      repeat (split; [solve [auto]|]).
      replace (i <? S y) with ((i <? y) || (i =? y) && (j <? w)) by lia. exact E4.
  - rewrite E. exists im. split; [reflexivity|].
    destruct I as (L & F & a' & b' & c' & A1 & A2 & A3 & (Wa' & Ra' & Ca') & (Wb' & Rb' & Cb') & (Wc' & Rc' & Cc') & A7).
    split; [auto|]. split; [auto|]. exists a, b, c, a', b', c'. repeat (split; [solve [auto]|]).
    split. { repeat (constructor; [solve [auto]|]). constructor. }
    intros y x Hy Hx. destruct (A7 y x Hy Hx) as (u & v & t & E1 & E2 & E3 & E4). exists u, v, t.
    repeat (split; [solve [auto]|]). replace (y <? r) with true in E4 by lia. exact E4.
Qed.
End Codec.

(** ** Whole codecs *)
Section Whole.
Context {T : Type}.
Variable lib : jpeg.
Variables (to_px : T -> Z) (of_px : Z -> T) (quality : Z).

Lemma rgb_encode_when (image : list (mat T)) start : Forall mwf image ->
  (~ encodable 3 image start -> rgb_encode lib to_px quality image start = Ok None) /\
  (encodable 3 image start -> exists img size, shows to_px 3 image start img /\
     rgb_encode lib to_px quality image start = let* bytes := jsave lib img size quality in Ok (Some bytes)).
Proof.
  intros W. destruct (check3_iff image start) as (r & E & H). split; intros HE.
  - apply encode_refused. rewrite E. destruct r; auto. exfalso. apply HE, H. auto.
  - apply encode_ok; auto. rewrite E. f_equal. apply H. auto.
Qed.
Lemma gray_encode_when (image : list (mat T)) start : Forall mwf image ->
  (~ encodable 1 image start -> gray_encode lib to_px quality image start = Ok None) /\
  (encodable 1 image start -> exists img size, shows to_px 1 image start img /\
     gray_encode lib to_px quality image start = let* bytes := jsave lib img size quality in Ok (Some bytes)).
Proof.
  intros W. destruct (check1_iff image start) as (r & E & H). split; intros HE.
  - apply encode_refused. rewrite E. destruct r; auto. exfalso. apply HE, H. auto.
  - apply encode_ok; auto. rewrite E. f_equal. apply H. auto.
Qed.

Lemma pixelwise_encodable f (image copy : list (mat T)) start :
  Forall mwf image -> encodable 3 image start -> pixelwise f image start copy ->
  encodable 3 copy start /\ Forall mwf copy.
Proof.
  intros W (r & c & Hr & Hc & H) (HL & HF & a & b & e & a' & b' & e' & Na & Nb & Ne & Na' & Nb' & Ne' & HD & _).
  inversion HD as [|? ? (Wa & Ra & Ca) HD1]; subst. inversion HD1 as [|? ? (Wb & Rb & Cb) HD2]; subst.
  inversion HD2 as [|? ? (We & Re & Ce) _]; subst.
  destruct (H 0 ltac:(lia)) as (m & Em & Rm & Cm). rewrite Nat.add_0_r in Em. assert (m = a) by congruence. subst m.
  split.
  - exists r, c. split; [auto|]. split; [auto|]. intros k Hk. destruct k as [|[|[|k]]]; [| | |lia].
    + rewrite Nat.add_0_r. exists a'. split; [auto|]. split; congruence.
    + exists b'. split; [auto|]. split; congruence.
    + exists e'. split; [auto|]. split; congruence.
  - apply Forall_forall. intros m Hm. apply In_nth_error in Hm as (i & Hi).
    rewrite Forall_forall in W.
    destruct (le_lt_dec start i) as [L|L]; [destruct (le_lt_dec (start + 3) i) as [L2|L2]|].
    + apply W. rewrite HF in Hi by lia. eapply nth_error_In; eauto.
    + assert (i = start \/ i = start + 1 \/ i = start + 2) as [ -> | [ -> | -> ] ] by lia.
      * assert (m = a') by congruence. subst; auto.
      * assert (m = b') by congruence. subst; auto.
      * assert (m = e') by congruence. subst; auto.
    + apply W. rewrite HF in Hi by lia. eapply nth_error_In; eauto.
Qed.

Lemma encodable_channels (image : list (mat T)) start : encodable 3 image start -> Forall mwf image ->
  exists a b c, nth_error image start = Some a /\ nth_error image (start + 1) = Some b /\ nth_error image (start + 2) = Some c /\
    mwf a /\ mwf b /\ mwf c /\ rows b = rows a /\ rows c = rows a /\ cols b = cols a /\ cols c = cols a.
Proof.
  intros (r & w & _ & _ & H) W. rewrite Forall_forall in W.
  destruct (H 0) as (a & Na & Ra & Ca); [lia|]. destruct (H 1) as (b & Nb & Rb & Cb); [lia|].
  destruct (H 2) as (c & Nc & Rc & Cc); [lia|]. rewrite Nat.add_0_r in Na.
  exists a, b, c. repeat split; auto; try congruence; apply W; eapply nth_error_In; eauto.
Qed.

Lemma hsl_encode_when f (image : list (mat T)) start : Forall mwf image ->
  (~ encodable 3 image start -> hsl_encode lib to_px quality f image start = Ok None) /\
  (encodable 3 image start -> exists copy img size, pixelwise f image start copy /\ shows to_px 3 copy start img /\
     hsl_encode lib to_px quality f image start = let* bytes := jsave lib img size quality in Ok (Some bytes)).
Proof.
  intros W. destruct (check3_iff image start) as (r & E & H). unfold hsl_encode. rewrite E. cbn [bind]. split; intros HE.
  - destruct r; [exfalso; apply HE, H; auto|reflexivity].
  - assert (r = true) by (apply H; auto). subst r. cbn [negb].
    destruct (encodable_channels image start HE W) as (a & b & c & H1 & H2 & H3 & H4 & H5 & H6 & H7 & H8 & H9 & H10).
    destruct (convert_ok f image start a b c) as (copy & Ec & Hc); auto. rewrite Ec. cbn [bind].
    destruct (pixelwise_encodable f image copy start W HE Hc) as (HE' & W').
    destruct (proj2 (rgb_encode_when copy start W') HE') as (img & size & Hs & Er).
    exists copy, img, size. auto.
Qed.

Lemma hsl_decode_ok f blob (image : list (mat T)) start img :
  blob <> [] -> jload lib blob = Some img -> cimg_wf img -> 3 <= cspectrum img ->
  exists mid image', decoded of_px 3 img image start mid /\ pixelwise f mid start image' /\
    hsl_decode lib of_px f blob image start = Ok (true, image').
Proof.
  intros Hb Hl W Hn. destruct (decode_ok lib of_px 3 blob image start img Hb Hl W Hn) as (mid & E & D).
  pose proof D as (_ & _ & _ & D4).
  destruct (D4 0) as (a & Na & Wa & Ra & Ca & _); [lia|]. destruct (D4 1) as (b & Nb & Wb & Rb & Cb & _); [lia|].
  destruct (D4 2) as (c & Nc & Wc & Rc & Cc & _); [lia|]. rewrite Nat.add_0_r in Na.
  destruct (convert_ok f mid start a b c) as (image' & Ec & Hc); auto; try congruence.
  exists mid, image'. split; [auto|]. split; [auto|]. unfold hsl_decode, rgb_decode. rewrite E. cbn [bind fst snd].
  rewrite Ec. reflexivity.
Qed.

Lemma round_trip n (enc : list (mat T) -> nat -> res (option (list Z))) (image old : list (mat T)) start start' img size :
  lossless lib quality -> shows to_px n image start img -> Forall mwf image ->
  enc image start = (let* bytes := jsave lib img size quality in Ok (Some bytes)) ->
  exists bytes, enc image start = Ok (Some bytes) /\
    exists im', decode_channels lib of_px n bytes old start' = Ok (true, im') /\
      forall k m, k < n -> nth_error image (start + k) = Some m ->
        nth_error im' (start' + k) = Some (map_mat (fun x => of_px (to_px x)) m).
Proof.
  intros HL (Sp & Wi & HS) W E. destruct (HL img size Wi) as (bytes & E1 & E2 & E3).
  exists bytes. rewrite E, E1. split; [reflexivity|].
  destruct (decode_ok lib of_px n bytes old start' img E2 E3 Wi ltac:(lia)) as (im' & Ed & _ & _ & _ & D).
  exists im'. split; [exact Ed|]. intros k m Hk Hm.
  destruct (D k Hk) as (m' & N' & W' & R' & C' & G'). rewrite N'. f_equal.
  destruct (HS k Hk) as (m0 & N0 & R0 & C0 & G0). assert (m0 = m) by congruence. subst m0.
  rewrite Forall_forall in W. pose proof (W m (nth_error_In _ _ Hm)) as Wm.
  unfold map_mat. destruct m' as [r' c' l']; destruct m as [r c l]; unfold mwf in *; cbn [rows cols elts] in *.
  subst r' c' r c. f_equal.
  apply nth_error_ext_eq; [rewrite map_length; congruence|]. intros i z v Hz Hv.
  rewrite nth_error_map in Hv. destruct (nth_error l i) as [v'|] eqn:Hl; [|discriminate]. cbn in Hv.
  assert (Hi : i < cheight img * cwidth img) by (rewrite <- W'; apply nth_error_Some; congruence).
  destruct (idx_inv i _ _ Hi) as (H1 & H2 & Hx).
  destruct (G0 (i mod cwidth img) (i / cwidth img)) as (v2 & Gv & Pv); [lia|lia|].
  destruct (G' (i mod cwidth img) (i / cwidth img)) as (z2 & Pz & Gz); [lia|lia|].
  assert (z2 = to_px v2) by congruence. subst z2.
  unfold mget in Gv, Gz. cbn [rows cols elts] in *.
  replace ((i / cwidth img <? cheight img) && (i mod cwidth img <? cwidth img)) with true in * by lia.
  rewrite <- Hx in *. unfold rd in *. rewrite Hl in Gv. rewrite Hz in Gz. congruence.
Qed.
End Whole.

(** ** WaveletImage *)
Section Img.
Context {T : Type} {A : Arith T}.

Lemma to_int32_id z : (- 2 ^ 31 <= z < 2 ^ 31)%Z -> to_int32 z = z.
Proof. intros H. unfold to_int32. rewrite Z.mod_small by lia. lia. Qed.

Lemma import_status (b b' : buffer T) data den cd start st :
  import_string b data den cd start = Ok (st, b') ->
  (st = kWrongData /\ (exists im, icdecode cd data = Ok (false, im)) /\ b' = b) \/
  (exists im r, icdecode cd data = Ok (true, im) /\
     view_decompose (View (to_int32 start) (to_int32 (Z.of_nat (length im))) true) b im den = Ok (r, b') /\
     ((r = true /\ st = kOk) \/ (r = false /\ st = kDecompositionError /\ b' = b))).
Proof.
  unfold import_string. intros H. apply bind_ok in H as ((r & im) & E & H). cbn [fst snd] in H.
  destruct r.
  - apply bind_ok in H as ((r & b1) & E1 & H). cbn [fst snd] in H. right. exists im, r. split; [auto|].
    assert (b1 = b') by congruence. subst b1. split; [auto|].
    destruct r; [left|right]; (split; [auto|]); [congruence|].
    split; [congruence|]. eapply (refused_unchanged b b' den); eauto.
  - left. split; [congruence|]. split; [eauto|congruence].
Qed.

Lemma import_ok p (b : buffer T) data den cd start im :
  accepted p -> reachable p b -> keeps_shape den -> is_1d p = false ->
  icdecode cd data = Ok (true, im) -> im <> [] -> Forall (shaped p) im ->
  (0 <= start)%Z -> (start + Z.of_nat (length im) <= signum p)%Z -> (signum p < 2 ^ 31)%Z ->
  exists b', import_string b data den cd start = Ok (kOk, b') /\ reachable p b' /\ bpar b' = p /\
    bdec b' = firstn (Z.to_nat start) (bdec b) ++ map (P_Impl.dec_of p den) im ++
              skipn (Z.to_nat start + length im) (bdec b).
Proof.
  intros HA HR Hk H2 Hd Hne HS Hs Hr Hb.
  destruct (reachable_weak p b HA HR) as (E1 & E2 & E3).
  unfold import_string. rewrite Hd. cbn [bind fst snd].
  rewrite !to_int32_id by lia.
  assert (Hv : view_decompose (View start (Z.of_nat (length im)) true) b im den =
    Ok (true, Buffer p (firstn (Z.to_nat start) (bdec b) ++ map (P_Impl.dec_of p den) im ++
              skipn (Z.to_nat start + length im) (bdec b)))).
  { unfold view_decompose, check_range. cbn [vstart vcount vmutable]. rewrite guard_true by lia. cbn [bind].
    rewrite E1. unfold wrap64. rewrite Z.mod_small by lia.
    replace (signum p <? start + Z.of_nat (length im))%Z with false by lia. cbn [negb]. rewrite guard_true by auto. cbn [bind].
    unfold odd_range. cbn [vstart vcount]. replace ((start <? 0) || (Z.of_nat (length im) <? 0))%Z with false by lia.
    rewrite Nat2Z.id. rewrite (P_Impl.decompose_impl_acc p HA); auto.
    - cbn [bind fst snd]. rewrite firstn_all. reflexivity.
    - destruct im; [congruence|cbn; lia].
    - intros _ s l. apply (proj1 Hk).
    - lia.
    - intros i sub _ Hi. apply E3. eapply nth_error_In; eauto. }
  rewrite Hv. cbn [bind fst snd]. eexists. split; [reflexivity|]. split.
  - eapply reach_view; [exact HR| |exact Hk|exact Hv]. eapply shaped_mwf; eauto.
  - split; reflexivity.
Qed.

Lemma import_refused p (b : buffer T) data den cd start im :
  accepted p -> bpar b = p -> is_1d p = false ->
  icdecode cd data = Ok (true, im) -> im <> [] -> (0 <= start)%Z -> (start + Z.of_nat (length im) < 2 ^ 31)%Z ->
  (signum p < start + Z.of_nat (length im))%Z \/ (forall m, nth_error im 0 = Some m -> rows m <> drows p \/ cols m <> dcols p) ->
  import_string b data den cd start = Ok (kDecompositionError, b).
Proof.
  intros HA Eb H2 Hd Hne Hs Hb HW. unfold import_string. rewrite Hd. cbn [bind fst snd].
  rewrite !to_int32_id by lia. pose proof (P_Impl.acc_signum p HA) as Hsg.
  assert (Hv : view_decompose (View start (Z.of_nat (length im)) true) b im den = Ok (false, b)).
  { unfold view_decompose, check_range. cbn [vstart vcount vmutable]. rewrite guard_true by lia. cbn [bind].
    rewrite Eb. unfold wrap64. rewrite Z.mod_small by lia.
    destruct (signum p <? start + Z.of_nat (length im))%Z eqn:El; cbn [negb]; [reflexivity|].
    rewrite guard_true by auto. cbn [bind]. unfold odd_range. cbn [vstart vcount].
    replace ((start <? 0) || (Z.of_nat (length im) <? 0))%Z with false by lia. rewrite Nat2Z.id.
    destruct HW as [HW|HW]; [lia|]. destruct im as [|m0 im]; [congruence|]. specialize (HW m0 eq_refl).
    unfold decompose_impl, decompose_impl_gen, shape_ok.
    unfold is_1d in H2. unfold dimension, drows, dcols in *.
    destruct (P_Impl.acc_cases p HA) as [(n & E & _)|(w & h & E & Hw & Hh & _)]; rewrite E in *; [discriminate|].
    cbn [length Nat.eqb rd nth_error bind]. rewrite Z.eqb_refl. cbn [negb bind].
    replace ((Z.of_nat (cols m0) =? w) && (Z.of_nat (rows m0) =? h))%Z with false by lia. cbn [negb bind fst snd].
    destruct b; cbn in *; subst; reflexivity. }
  rewrite Hv. reflexivity.
Qed.

Lemma export_ok p (b : buffer T) cd start :
  accepted p -> bpar b = p -> Z.of_nat (length (bdec b)) = signum p ->
  (0 <= start)%Z -> (0 <= icchannels cd)%Z -> (start + icchannels cd <= signum p)%Z -> (signum p < 2 ^ 31)%Z ->
  (forall i ch, (start <= Z.of_nat i < start + icchannels cd)%Z -> nth_error (bdec b) i = Some ch -> has_layout p ch) ->
  export_string b cd start =
    let* e := icencode cd (map (P_Impl.com_of p 0) (firstn (Z.to_nat (icchannels cd)) (skipn (Z.to_nat start) (bdec b)))) in
    Ok (match e with Some bytes => (kOk, Some bytes) | None => (kWrongData, None) end).
Proof.
  intros HA Eb HL Hs Hc Hr Hb HLay. unfold export_string. rewrite !to_int32_id by lia.
  unfold view_compose, check_range. cbn [vstart vcount vmutable]. rewrite guard_true by lia. cbn [bind].
  rewrite Eb. unfold wrap64. rewrite Z.mod_small by lia.
  replace (signum p <? start + icchannels cd)%Z with false by lia. cbn [negb]. cbn [scale_arg bind].
  change (scale_arg 0) with (Ok 0). cbn [bind].
  replace (icchannels cd <? 0)%Z with false by lia. replace ((start <? 0) && (0 <? icchannels cd))%Z with false by lia.
  rewrite (P_Impl.compose_impl_acc p HA); [|lia|lia|].
  - cbn [bind fst snd]. destruct (icencode cd _) as [[bytes|]| |]; reflexivity.
  - intros i ch Hi Hn. apply layout_iff; auto. eapply HLay; eauto. lia.
Qed.

Lemma export_out_of_range (b : buffer T) cd start :
  (0 <= start)%Z -> (0 <= icchannels cd)%Z -> (start + icchannels cd < 2 ^ 31)%Z ->
  (signum (bpar b) < start + icchannels cd)%Z ->
  export_string b cd start = Ok (kCompositionError, None).
Proof.
  intros. unfold export_string. rewrite !to_int32_id by lia.
  unfold view_compose, check_range. cbn [vstart vcount]. rewrite guard_true by lia. cbn [bind].
  unfold wrap64. rewrite Z.mod_small by lia.
  replace (signum (bpar b) <? start + icchannels cd)%Z with true by lia. reflexivity.
Qed.

Lemma import_export p (b : buffer T) data den cd start im :
  accepted p -> steps p = 0%Z -> reachable p b -> keeps_shape den -> is_1d p = false ->
  icdecode cd data = Ok (true, im) -> im <> [] -> Forall (shaped p) im ->
  Z.of_nat (length im) = icchannels cd ->
  (0 <= start)%Z -> (start + icchannels cd <= signum p)%Z -> (signum p < 2 ^ 31)%Z ->
  exists b', import_string b data den cd start = Ok (kOk, b') /\
    export_string b' cd start =
      let* e := icencode cd im in
      Ok (match e with Some bytes => (kOk, Some bytes) | None => (kWrongData, None) end).
Proof.
  intros HA H0 HR Hk H2 Hd Hne HS HL Hs Hr Hb.
  destruct (import_ok p b data den cd start im) as (b' & E1 & HR' & Eb & Ed); auto; [lia|].
  exists b'. split; [exact E1|].
  destruct (reachable_weak p b HA HR) as (F1 & F2 & F3). destruct (reachable_weak p b' HA HR') as (G1 & G2 & G3).
  assert (Hf : length (firstn (Z.to_nat start) (bdec b)) = Z.to_nat start) by (rewrite firstn_length; lia).
  assert (Hsl : firstn (Z.to_nat (icchannels cd)) (skipn (Z.to_nat start) (bdec b')) = map (P_Impl.dec_of p den) im).
  { rewrite Ed. rewrite skipn_app, skipn_all2 by lia. rewrite Hf, Nat.sub_diag, app_nil_l, skipn_O.
    rewrite firstn_app, map_length. replace (Z.to_nat (icchannels cd) - length im) with 0 by lia.
    rewrite firstn_O, app_nil_r. apply firstn_all2. rewrite map_length. lia. }
  rewrite (export_ok p); auto; try lia.
  - rewrite Hsl, map_map.
    replace (map (fun x => P_Impl.com_of p 0 (P_Impl.dec_of p den x)) im) with im; [reflexivity|].
    rewrite <- (map_id im) at 1. apply map_ext_in. intros m Hm. rewrite Forall_forall in HS.
    rewrite dec_of_0, compose_0 by auto. reflexivity.
  - intros i ch Hi Hn.
    assert (Hin : In ch (map (P_Impl.dec_of p den) im)).
    { rewrite <- Hsl. apply nth_error_In with (i - Z.to_nat start).
      rewrite <- (firstn_skipn (Z.to_nat start) (bdec b')) in Hn.
      assert (Hf' : length (firstn (Z.to_nat start) (bdec b')) = Z.to_nat start).
      { rewrite firstn_length. assert (start <= Z.of_nat (length (bdec b')))%Z by (rewrite G2; lia). lia. }
      rewrite nth_error_app2 in Hn by lia. rewrite Hf' in Hn.
      rewrite <- (firstn_skipn (Z.to_nat (icchannels cd)) (skipn (Z.to_nat start) (bdec b'))) in Hn.
      rewrite nth_error_app1 in Hn; [exact Hn|]. rewrite Hsl, map_length. lia. }
    apply in_map_iff in Hin as (m & <- & _). apply dec_of_layout; auto.
Qed.
End Img.

(** ** Files *)
Lemma fset_same f p c : fset f p c p = Some c.
Proof. unfold fset. destruct (path_dec p p); congruence. Qed.
Lemma fset_other f p c q : q <> p -> fset f p c q = f q.
Proof. intros. unfold fset. destruct (path_dec q p); congruence. Qed.

Section Files.
Implicit Types (cd : codec) (legacy : buffer word -> list Z -> res (option (buffer word))).

Lemma save_storable cd b e f p : storable b -> can_open e = true ->
  exists data, serialize cd b 0 = Ok (Some data) /\ 
    fst (save_file cd e f p b) = Ok kOk /\
    snd (save_file cd e f p b) p = Some (firstn (reaches e) data) /\
    forall q, q <> p -> snd (save_file cd e f p b) q = f q.
Proof.
  intros HS He. destruct (serialize_0 cd b HS) as (data & E). exists data. split; [exact E|].
  unfold save_file, write_file. rewrite He, E. cbn [bind fst snd]. split; [reflexivity|].
  split; [apply fset_same|]. intros q Hq. rewrite !fset_other by auto. reflexivity.
Qed.

Lemma save_load cd legacy b e e' f p data : storable b -> can_open e = true -> can_open e' = true ->
  serialize cd b 0 = Ok (Some data) -> length data <= reaches e ->
  fst (save_file cd e f p b) = Ok kOk /\ load_file cd legacy e' (snd (save_file cd e f p b)) p = Ok (Some b).
Proof.
  intros HS He He' E HL. destruct (save_storable cd b e f p HS He) as (d & E1 & E2 & E3 & _).
  assert (d = data) by congruence. subst d. split; [exact E2|].
  unfold load_file, fread. rewrite He', E3. rewrite firstn_all2 by lia.
  destruct (uncompressed cd legacy b HS) as (d & E4 & E5). assert (d = data) by congruence. subst d.
  specialize (E5 []). rewrite app_nil_r in E5. exact E5.
Qed.

Lemma torn_write cd legacy b e e' f p data : storable b -> can_open e = true -> can_open e' = true ->
  serialize cd b 0 = Ok (Some data) -> reaches e < length data ->
  fst (save_file cd e f p b) = Ok kOk /\
  ((header_length (bpar b) <= reaches e -> load_file cd legacy e' (snd (save_file cd e f p b)) p = Ok None) /\
   (reaches e < header_length (bpar b) -> load_file cd legacy e' (snd (save_file cd e f p b)) p = UB)).
Proof.
  intros HS He He' E HL. destruct (save_storable cd b e f p HS He) as (d & E1 & E2 & E3 & _).
  assert (d = data) by congruence. subst d. split; [exact E2|].
  unfold load_file, fread. rewrite He', E3.
  assert (Z0 : body_sf b 0 = 0%Z) by (unfold body_sf; destruct (is_empty b); reflexivity).
  destruct (parse_truncated cd legacy b 0 (fun x => x) data (firstn (reaches e) data) (skipn (reaches e) data) HS ltac:(lia)
    ltac:(rewrite Z0; congruence) ltac:(rewrite Z0; congruence) E) as (H1 & H2).
  - symmetry. apply firstn_skipn.
  - intros Hn. apply (f_equal (@length Z)) in Hn. rewrite skipn_length in Hn. cbn in Hn. lia.
  - rewrite firstn_length_le in H1, H2 by lia. split; assumption.
Qed.

Lemma write_unopened e f p (r : res (status * option (list Z))) : can_open e = false -> write_file e f p r = (Ok kIOError, f).
Proof. intros H. unfold write_file. rewrite H. reflexivity. Qed.
Lemma write_refused e f p st : can_open e = true -> 
  write_file e f p (Ok (st, None)) = (Ok st, fset f p []).
Proof. intros H. unfold write_file. rewrite H. reflexivity. Qed.
End Files.

(** ** What the status says *)
Section Status.
Context {T : Type} {A : Arith T}.

Lemma import_writes p (b : buffer T) data den cd start im :
  accepted p -> reachable p b -> keeps_shape den -> is_1d p = false ->
  icdecode cd data = Ok (true, im) -> im <> [] -> Forall (shaped p) im ->
  (0 <= start)%Z -> (start + Z.of_nat (length im) <= signum p)%Z -> (signum p < 2 ^ 31)%Z ->
  exists b' bs bs', import_string b data den cd start = Ok (kOk, b') /\
    @new_buffer T (with_signum p (Z.of_nat (length im))) = Ok bs /\
    decompose bs im den = Ok (true, bs') /\ length (bdec bs') = length im /\
    bpar b' = p /\ length (bdec b') = length (bdec b) /\
    (forall i, i < length im -> nth_error (bdec b') (Z.to_nat start + i) = nth_error (bdec bs') i) /\
    (forall i, (Z.of_nat i < start \/ start + Z.of_nat (length im) <= Z.of_nat i)%Z ->
       nth_error (bdec b') i = nth_error (bdec b) i).
Proof.
  intros HA HR Hk H2 Hd Hne HS Hs Hr Hb.
  destruct (view_writes p (View start (Z.of_nat (length im)) true) b im den) as (b' & bs & bs' & E1 & E2 & E3 & E4 & E5);
    auto; cbn [vcount vstart vmutable] in *; [split; cbn; lia| |].
  { destruct im; [congruence|cbn; lia]. }
  destruct (view_frame _ _ _ _ _ _ E1) as (F1 & F2 & F3). cbn [vstart vcount] in F3.
  rewrite Nat2Z.id in E4, E5.
  exists b', bs, bs'. split.
  { unfold import_string. rewrite Hd. cbn [bind fst snd]. rewrite !to_int32_id by lia. rewrite E1. reflexivity. }
  split; [exact E2|]. split; [exact E3|]. split; [exact E4|].
  split; [rewrite F1; apply (reachable_weak p b HA HR)|]. split; [exact F2|]. split; assumption.
Qed.

Lemma export_status (b : buffer T) cd start st d :
  export_string b cd start = Ok (st, d) ->
  (st = kCompositionError /\ d = None /\
     exists o, view_compose (View (to_int32 start) (to_int32 (icchannels cd)) false) b 0 = Ok (false, o)) \/
  (exists image, view_compose (View (to_int32 start) (to_int32 (icchannels cd)) false) b 0 = Ok (true, Some image) /\
     ((st = kWrongData /\ d = None /\ icencode cd image = Ok None) \/
      (st = kOk /\ exists bytes, d = Some bytes /\ icencode cd image = Ok (Some bytes)))).
Proof.
  unfold export_string. intros H. apply bind_ok in H as ((r & o) & E & H).
  assert (Hr : r = true -> exists image, o = Some image).
  { intros ->. revert E. unfold view_compose. intros E. apply bind_ok in E as (c & Ec & E).
    destruct c; cbn [negb] in E; [|discriminate].
    apply bind_ok in E as (k & Ek & E). destruct (vcount _ <? 0)%Z; [discriminate|].
    destruct ((vstart _ <? 0)%Z && (0 <? vcount _)%Z); [discriminate|].
    apply bind_ok in E as ((r' & o') & E' & E). cbn [fst snd] in E. exists o'. congruence. }
  destruct r.
  - destruct (Hr eq_refl) as (image & ->). right. exists image. split; [exact E|].
    apply bind_ok in H as (e & Ee & H). destruct e as [bytes|]; [right|left].
    + split; [congruence|]. exists bytes. split; [congruence|auto].
    + repeat split; auto; congruence.
  - left. split; [congruence|]. split; [congruence|]. eauto.
Qed.
End Status.

Lemma cimg_eq (a b : cimg) : cimg_wf a -> cimg_wf b -> cwidth a = cwidth b -> cheight a = cheight b ->
  cspectrum a = cspectrum b ->
  (forall x y k, x < cwidth a -> y < cheight a -> k < cspectrum a -> pixel a x y k = pixel b x y k) -> a = b.
Proof.
  destruct a as [w h n l], b as [w' h' n' l']. unfold cimg_wf, pixel. cbn. intros W W' <- <- <- H. f_equal.
  apply nth_error_ext_eq; [congruence|]. intros i u v Hu Hv.
  assert (Hi : i < n * (w * h)) by (rewrite <- W; apply nth_error_Some; congruence).
  destruct (idx_inv i n (w * h) Hi) as (H1 & H2 & Hx).
  destruct (idx_inv (i mod (w * h)) h w ltac:(lia)) as (H3 & H4 & Hy).
  specialize (H (i mod (w * h) mod w) (i mod (w * h) / w) (i / (w * h)) H4 H3 H1).
  rewrite <- Nat.add_assoc, <- Hy, <- Hx in H. congruence.
Qed.

Lemma same_picture {T} (to_px : T -> Z) of_px n img img' (im : list (mat T)) :
  0 < n -> cimg_wf img -> cspectrum img = n -> Forall (fun z => to_px (of_px z) = z) (cpixels img) ->
  decoded of_px n img [] 0 im -> shows to_px n im 0 img' -> img' = img.
Proof.
  intros Hn W Sp Hp (_ & _ & _ & D) (Sp' & W' & S).
  destruct (D 0 Hn) as (m0 & N0 & _ & R0 & C0 & _). destruct (S 0 Hn) as (m0' & N0' & R0' & C0' & _).
  assert (m0 = m0') by congruence. subst m0'.
  apply cimg_eq; auto; try congruence. intros x y k Hx Hy Hk.
  destruct (D k ltac:(lia)) as (m & N & _ & R & C & G). destruct (S k ltac:(lia)) as (m' & N' & R' & C' & G').
  assert (m = m') by congruence. subst m'.
  destruct (G x y) as (v & P & Q); [lia|lia|]. destruct (G' x y) as (u & Q' & P'); [lia|lia|].
  assert (u = of_px v) by congruence. subst u. rewrite P, P'. f_equal.
  rewrite Forall_forall in Hp. apply Hp. eapply nth_error_In. unfold pixel in P. exact P.
Qed.

(** ** A fresh WaveletImage *)
Section Fresh.
Context {T : Type} {A : Arith T}.
Lemma image_round_trip channels w h data den (cd : image_codec T) start im :
  accepted (Params [w; h] channels 0 1) -> (channels < 2 ^ 31)%Z -> keeps_shape den ->
  icdecode cd data = Ok (true, im) -> im <> [] -> Z.of_nat (length im) = icchannels cd ->
  Forall (fun m => length (elts m) = rows m * cols m /\ Z.of_nat (rows m) = h /\ Z.of_nat (cols m) = w) im ->
  (0 <= start)%Z -> (start + icchannels cd <= channels)%Z ->
  exists b b', @new_image T channels w h = Ok b /\ import_string b data den cd start = Ok (kOk, b') /\
    export_string b' cd start =
      let* e := icencode cd im in
      Ok (match e with Some bytes => (kOk, Some bytes) | None => (kWrongData, None) end).
Proof.
  intros HA Hc Hk Hd Hne HL HS Hs Hr. set (p := Params [w; h] channels 0 1) in *.
  pose proof (P_Params.new_buffer_legal (T:=T) p ltac:(apply HA) ltac:(cbn; lia) ltac:(apply HA)) as Eb. set (b := Buffer p _) in Eb.
  destruct (import_export p b data den cd start im) as (b' & E1 & E2); auto.
  - apply reach_new. exact Eb.
  - eapply Forall_impl; [|exact HS]. intros m (W & R & C). split; [exact W|].
    unfold drows, dcols, p; cbn. lia.
  - exists b, b'. auto.
Qed.

Lemma picture_round_trip lib to_px of_px quality channels data den start img :
  let cd := ImageCodec T (fun data => rgb_decode lib of_px data [] 0)
                         (fun image => rgb_encode lib to_px quality image 0) 3 in
  let w := Z.of_nat (cwidth img) in let h := Z.of_nat (cheight img) in
  accepted (Params [w; h] channels 0 1) -> (channels < 2 ^ 31)%Z -> keeps_shape den ->
  data <> [] -> jload lib data = Some img -> cimg_wf img -> cspectrum img = 3 ->
  cwidth img <> 0 -> cheight img <> 0 ->
  Forall (fun z => to_px (of_px z) = z) (cpixels img) ->
  (0 <= start)%Z -> (start + 3 <= channels)%Z ->
  exists b b' size, @new_image T channels w h = Ok b /\ import_string b data den cd start = Ok (kOk, b') /\
    export_string b' cd start = let* bytes := jsave lib img size quality in Ok (kOk, Some bytes).
Proof.
  intros cd w h HA Hc Hk Hne Hl W Sp Hw Hh Hp Hs Hr.
  destruct (decode_ok lib of_px 3 data [] 0 img Hne Hl W ltac:(lia)) as (im & Ed & D).
  pose proof D as (DL & _ & _ & D4). cbn [length Nat.max Nat.add] in DL.
  assert (HF : Forall (fun m => length (elts m) = rows m * cols m /\ rows m = cheight img /\ cols m = cwidth img) im).
  { apply Forall_forall. intros m Hm. apply In_nth_error in Hm as (i & Hi).
    assert (i < length im) by (apply nth_error_Some; congruence).
    destruct (D4 i) as (m' & N & Wm & R & C & _); [lia|]. cbn in N. assert (m = m') by congruence. subst m'. auto. }
  destruct (image_round_trip channels w h data den cd start im) as (b & b' & E1 & E2 & E3); auto.
  - intros ->. discriminate.
  - rewrite DL. reflexivity.
  - eapply Forall_impl; [|exact HF]. cbn. intros m (Wm & R & C). unfold w, h. split; [exact Wm|lia].
  - assert (HE : encodable 3 im 0).
    { exists (cheight img), (cwidth img). split; [auto|]. split; [auto|]. intros k Hk'.
      destruct (D4 k Hk') as (m & N & _ & R & C & _). exists m. auto. }
    destruct (proj2 (rgb_encode_when lib to_px quality im 0 ltac:(eapply Forall_impl; [|exact HF]; cbn; intros m (Wm & _); exact Wm)) HE)
      as (img' & size & HS' & Ee).
    assert (img' = img) by (eapply (same_picture to_px of_px 3); eauto). subst img'.
    exists b, b', size. split; [exact E1|]. split; [exact E2|]. rewrite E3. cbn [icencode cd]. rewrite Ee.
    destruct (jsave lib img size quality); reflexivity.
Qed.
End Fresh.
