(** * P_Store: proofs about files as a store of images *)
Require Import List Bool Arith ZArith Lia.
Require Import Verif.M_Base Verif.M_Params Verif.M_Buffer Verif.M_View Verif.M_Denoise Verif.M_Archive Verif.M_Serializer
  Verif.M_Image Verif.M_Store Verif.S_Params Verif.S_Buffer Verif.S_Serializer Verif.S_Image Verif.S_Store
  Verif.P_Base Verif.P_Api Verif.P_Api2 Verif.P_Serializer Verif.P_Blob Verif.P_Image Verif.P_Object.
Import ListNotations.
Open Scope nat_scope.

Section Store.
Context {A : Arith word}.
Variable cd : codec.
Variable legacy : buffer word -> list Z -> res (option (buffer word)).
Notation step := (step cd legacy).
Notation run := (run cd legacy).

Lemma run_app m h1 h2 : run m (h1 ++ h2) = let* r := run m h1 in let* r' := run (fst r) h2 in Ok (fst r', snd r ++ snd r').
Proof.
  revert m. induction h1 as [|o h1 IH]; intro m.
  - cbn. destruct (run m h2) as [[x y]| |]; reflexivity.
  - cbn [app M_Store.run]. destruct (step m o) as [[m1 a]| |]; cbn; [|reflexivity|reflexivity].
    rewrite IH. destruct (run m1 h1) as [[m2 l2]| |]; cbn; [|reflexivity|reflexivity].
    destruct (run m2 h2) as [[m3 l3]| |]; reflexivity.
Qed.
Lemma run_snoc m h o m' l : run m (h ++ [o]) = Ok (m', l) ->
  exists m1 l1 a, run m h = Ok (m1, l1) /\ step m1 o = Ok (m', a) /\ l = l1 ++ [a].
Proof.
  rewrite run_app. intros E. apply bind_ok in E as ([m1 l1] & E1 & E). cbn [fst snd M_Store.run] in E.
  apply bind_ok in E as (r & E2 & E). apply bind_ok in E2 as ([m2 a] & E2 & E3).
  cbn [bind fst snd] in E3. injection E3 as <-. injection E as <- <-. exists m1, l1, a. split; [exact E1|]. split; [exact E2|reflexivity].
Qed.

Lemma made_storable (b : buffer word) : made b -> storable b.
Proof. intros (p & (H1 & H2 & H3) & HR). apply (reachable_storable p b H1 H2 HR H3). Qed.

Lemma read_torn e f q b n data : made b -> serialize cd b 0 = Ok (Some data) -> f q = Some (firstn n data) -> can_open e = true ->
  (length data <= n /\ load_file cd legacy e f q = Ok (Some b)) \/
  (header_length (bpar b) <= n < length data /\ load_file cd legacy e f q = Ok None) \/
  (n < header_length (bpar b) /\ n < length data /\ load_file cd legacy e f q = UB).
Proof.
  intros HM E Hf He. pose proof (made_storable b HM) as HS.
  set (e0 := Env true n).
  destruct (save_storable cd b e0 f q HS eq_refl) as (d & E1 & _ & E3 & _).
  assert (d = data) by congruence. subst d. cbn [reaches e0] in E3.
  assert (EQ : load_file cd legacy e f q = load_file cd legacy e (snd (save_file cd e0 f q b)) q).
  { unfold load_file, fread. rewrite He, E3, Hf. reflexivity. }
  rewrite EQ. destruct (le_lt_dec (length data) n) as [H|H].
  - left. split; [exact H|]. apply (save_load cd legacy b e0 e f q data HS eq_refl He E1 H).
  - right. destruct (torn_write cd legacy b e0 e f q data HS eq_refl He E1 H) as (_ & T1 & T2). cbn [reaches e0] in T1, T2.
    destruct (le_lt_dec (header_length (bpar b)) n) as [H2|H2]; [left|right]; auto.
Qed.

Lemma wr_in {X} (l l' : list X) i x y : wr l i x = Ok l' -> In y l' -> y = x \/ In y l.
Proof.
  intros E Hy. apply In_nth_error in Hy as (k & Hk).
  assert (Hi : i < length l) by (unfold wr in E; destruct (Nat.ltb_spec i (length l)); [auto|discriminate]).
  rewrite wr_lt in E by exact Hi. injection E as <-. rewrite upd_nth in Hk.
  destruct (k =? i); [|right; eapply nth_error_In; eauto].
  destruct (i <? length l); [left; congruence|discriminate].
Qed.
Lemma held_in m i b : held m i = Ok b -> nth_error (live m) i = Some (Some b) /\ In (Some b) (live m).
Proof.
  unfold held, rd. destruct (nth_error (live m) i) as [[b'|]|] eqn:E; cbn; try discriminate.
  intros [= <-]. split; [reflexivity|]. eapply nth_error_In; eauto.
Qed.

Lemma import_made (b b' : buffer word) data den ic start st : made b -> keeps_shape den -> delivers ic ->
  import_string b data den ic start = Ok (st, b') -> made b'.
Proof.
  intros HM Hk Hd E. destruct (import_status b b' data den ic start st E) as [(_ & _ & ->)|(im & r & E1 & E2 & _)]; [exact HM|].
  destruct HM as (p & Hp & HR). exists p. split; [exact Hp|].
  apply (reach_view p b _ im den r b' HR (Hd _ _ E1) Hk E2).
Qed.

(** what a call does to a file *)
Lemma write_other e f p r q : ~ (can_open e = true /\ p = q) -> snd (write_file e f p r) q = f q.
Proof.
  intros HN. unfold write_file. destruct (can_open e); [|reflexivity].
  assert (q <> p) by (intros ->; auto).
  destruct r as [[st [d|]]| |]; cbn [snd]; rewrite !fset_other by auto; reflexivity.
Qed.
Lemma step_disk m o m' a q : step m o = Ok (m', a) -> ~ opens q o -> disk m' q = disk m q.
Proof.
  intros E HN. destruct o; cbn [M_Store.step opens] in *.
  - destruct (new_buffer p); [|injection E as <- <-; reflexivity|discriminate]. injection E as <- <-. reflexivity.
  - apply bind_ok in E as (? & _ & E). apply bind_ok in E as (? & _ & E). injection E as <- <-. reflexivity.
  - apply bind_ok in E as (? & _ & E). apply bind_ok in E as (? & _ & E). injection E as <- <-. reflexivity.
  - apply bind_ok in E as (? & _ & E). apply bind_ok in E as (? & _ & E). apply bind_ok in E as (? & _ & E). injection E as <- <-. reflexivity.
  - apply bind_ok in E as (? & _ & E). apply bind_ok in E as (? & _ & E). apply bind_ok in E as (? & _ & E). injection E as <- <-. reflexivity.
  - apply bind_ok in E as (b & _ & E). apply bind_ok in E as (st & _ & E). injection E as <- <-. cbn [disk].
    apply write_other. exact HN.
  - apply bind_ok in E as (b & _ & E). apply bind_ok in E as (st & _ & E). injection E as <- <-. cbn [disk].
    apply write_other. exact HN.
  - apply bind_ok in E as (? & _ & E). destruct x; injection E as <- <-; reflexivity.
  - injection E as <- <-. reflexivity.
  - apply bind_ok in E as (b & _ & E). injection E as <- <-. cbn [disk kill]. apply write_other. exact HN.
  - apply bind_ok in E as (b & _ & E). injection E as <- <-. cbn [disk kill]. apply write_other. exact HN.
Qed.

Lemma step_live m o m' a : step m o = Ok (m', a) -> (forall b, In (Some b) (live m) -> made b) ->
  (forall b, match o with MNew p => sensible p -> new_buffer p = Ok b -> made b | _ => True end) ->
  match o with
  | MPut _ b => made b
  | MImport _ _ _ den ic _ | MImportString _ _ den ic _ => keeps_shape den /\ delivers ic
  | MNew p => sensible p
  | MLoad e q => forall b, load_file cd legacy e (disk m) q = Ok (Some b) -> made b
  | _ => True
  end -> forall b, In (Some b) (live m') -> made b.
Proof.
  intros E HL HN HO b Hb. destruct o; cbn [M_Store.step] in E.
  - destruct (new_buffer p) as [b0| |] eqn:En; [|injection E as <- <-; auto|discriminate]. injection E as <- <-.
    cbn [live] in Hb. apply in_app_or in Hb as [Hb|[[= <-]|[]]]; auto.
  - apply bind_ok in E as (? & _ & E). apply bind_ok in E as (? & Ew & E). injection E as <- <-. cbn [live] in Hb.
    destruct (wr_in _ _ _ _ _ Ew Hb); [discriminate|auto].
  - apply bind_ok in E as (? & _ & E). apply bind_ok in E as (? & Ew & E). injection E as <- <-. cbn [live] in Hb.
    destruct (wr_in _ _ _ _ _ Ew Hb) as [[= ->]|]; auto.
  - apply bind_ok in E as (b0 & Eh & E). apply bind_ok in E as ([st b1] & Ei & E). apply bind_ok in E as (? & Ew & E). injection E as <- <-.
    cbn [live snd] in Hb, Ew. destruct (wr_in _ _ _ _ _ Ew Hb) as [[= ->]|]; [|auto].
    destruct HO as (Hk & Hd). unfold import_file in Ei. destruct (fread e (disk m) q).
    + eapply import_made; eauto. apply HL. eapply held_in; eauto.
    + injection Ei as <- <-. apply HL. eapply held_in; eauto.
  - apply bind_ok in E as (b0 & Eh & E). apply bind_ok in E as ([st b1] & Ei & E). apply bind_ok in E as (? & Ew & E). injection E as <- <-.
    cbn [live snd] in Hb, Ew. destruct (wr_in _ _ _ _ _ Ew Hb) as [[= ->]|]; [|auto].
    destruct HO as (Hk & Hd). eapply import_made; eauto. apply HL. eapply held_in; eauto.
  - apply bind_ok in E as (? & _ & E). apply bind_ok in E as (? & _ & E). injection E as <- <-. auto.
  - apply bind_ok in E as (? & _ & E). apply bind_ok in E as (? & _ & E). injection E as <- <-. auto.
  - apply bind_ok in E as ([b0|] & El & E); injection E as <- <-; [|auto]. cbn [live] in Hb.
    apply in_app_or in Hb as [Hb|[[= <-]|[]]]; auto.
  - injection E as <- <-. cbn [kill live] in Hb. apply in_map_iff in Hb as (? & ? & _). discriminate.
  - apply bind_ok in E as (? & _ & E). injection E as <- <-. cbn [kill live] in Hb. apply in_map_iff in Hb as (? & ? & _). discriminate.
  - apply bind_ok in E as (? & _ & E). injection E as <- <-. cbn [kill live] in Hb. apply in_map_iff in Hb as (? & ? & _). discriminate.
Qed.

Lemma new_made p (b : buffer word) : sensible p -> new_buffer p = Ok b -> made b.
Proof. intros Hp E. exists p. split; [exact Hp|]. apply reach_new. exact E. Qed.

(** a Save, finished or killed, that opened the file *)
Lemma save_disk m o m' a e i q : step m o = Ok (m', a) -> o = MSave e i q \/ o = MKillSave e i q -> can_open e = true ->
  (forall b, In (Some b) (live m) -> made b) ->
  exists b data, nth_error (live m) i = Some (Some b) /\ made b /\ serialize cd b 0 = Ok (Some data) /\
    disk m' q = Some (firstn (reaches e) data).
Proof.
  intros E HO He HL.
  assert (exists b, held m i = Ok b /\ disk m' = snd (save_file cd e (disk m) q b)) as (b & Hh & Hm).
  { destruct HO as [-> | ->]; cbn [M_Store.step] in E.
    - apply bind_ok in E as (b & Hh & E). apply bind_ok in E as (? & _ & E). injection E as <- <-. exists b. auto.
    - apply bind_ok in E as (b & Hh & E). injection E as <- <-. exists b. auto. }
  destruct (held_in m i b Hh) as (H1 & H2). pose proof (HL b H2) as HM.
  destruct (save_storable cd b e (disk m) q (made_storable b HM) He) as (data & E1 & _ & E3 & _).
  exists b, data. rewrite Hm. auto.
Qed.

Lemma opens_dec q o : opens q o \/ ~ opens q o.
Proof.
  destruct o; cbn [opens]; auto; destruct (can_open e); destruct (path_dec q0 q); auto; right; intros (? & ?); congruence.
Qed.

Definition story (m0 : machine) (h : list call) (m : machine) (q : path) : Prop :=
  (Forall (fun o => ~ opens q o) h /\ disk m q = disk m0 q) \/
  exists b n data, last_saved cd legacy m0 h q b n /\ made b /\ serialize cd b 0 = Ok (Some data) /\
    disk m q = Some (firstn n data).

Lemma last_saved_snoc m0 h o q b n : last_saved cd legacy m0 h q b n -> ~ opens q o -> last_saved cd legacy m0 (h ++ [o]) q b n.
Proof.
  intros (h1 & o1 & h2 & e & i & m1 & l1 & -> & H1 & H2 & H3 & H4 & H5 & H6) HN.
  exists h1, o1, (h2 ++ [o]), e, i, m1, l1. rewrite <- app_assoc. cbn [app].
  do 6 (split; [solve [auto]|]). apply Forall_app. split; [exact H6|]. constructor; auto.
Qed.

Lemma run_story arch m0 h m l : initial arch m0 -> Forall (proper arch) h -> run m0 h = Ok (m, l) ->
  (forall b, In (Some b) (live m) -> made b) /\ forall q, arch q -> story m0 h m q.
Proof.
  intros (I1 & I2). revert m l. induction h as [|o h IH] using rev_ind; intros m l HP E.
  - cbn in E. injection E as <- <-. split; [rewrite I1; intros b []|]. intros q _. left. split; [constructor|reflexivity].
  - apply Forall_app in HP as (HP & HPo). inversion_clear HPo as [|? ? Ho _].
    apply run_snoc in E as (m1 & l1 & a & E1 & E2 & _).
    destruct (IH m1 l1 HP E1) as (HL & HS). split.
    + apply (step_live m1 o m a E2 HL).
      * destruct o; auto. intros b Hp Hn. eapply new_made; eauto.
      * destruct o; cbn [proper] in Ho; auto. intros b Hb.
        unfold load_file, fread in Hb. destruct (can_open e) eqn:He; [|discriminate].
        destruct (HS q Ho) as [(_ & Hd)|(b0 & n & data & _ & HM & Es & Hd)].
        -- rewrite Hd, I2 in Hb by exact Ho. discriminate.
        -- destruct (read_torn e (disk m1) q b0 n data HM Es Hd He) as [(_ & El)|[(_ & El)|(_ & _ & El)]];
             unfold load_file, fread in El; rewrite He in El; rewrite El in Hb; try discriminate.
           injection Hb as <-. exact HM.
    + intros q Hq. destruct (opens_dec q o) as [Hop|Hop].
      * right.
        assert (exists e i, (o = MSave e i q \/ o = MKillSave e i q) /\ can_open e = true) as (e & i & HO & He).
        { destruct o; cbn [opens proper] in *; try contradiction; destruct Hop as (He & ->); try contradiction; eauto. }
        destruct (save_disk m1 o m a e i q E2 HO He HL) as (b & data & H1 & H2 & H3 & H4).
        exists b, (reaches e), data. split; [|auto].
        exists h, o, [], e, i, m1, l1. do 6 (split; [solve [auto]|]). constructor.
      * rewrite <- (step_disk m1 o m a q E2 Hop) in HS || idtac.
        destruct (HS q Hq) as [(HF & Hd)|(b & n & data & H1 & H2 & H3 & H4)].
        -- left. split; [apply Forall_app; split; [exact HF|constructor; auto]|].
           rewrite (step_disk m1 o m a q E2 Hop). exact Hd.
        -- right. exists b, n, data. split; [apply last_saved_snoc; auto|].
           rewrite (step_disk m1 o m a q E2 Hop). auto.
Qed.

Lemma load_story arch m0 h m l e q : initial arch m0 -> Forall (proper arch) h -> run m0 h = Ok (m, l) -> arch q -> can_open e = true ->
  (Forall (fun o => ~ opens q o) h /\ load_file cd legacy e (disk m) q = Ok None) \/
  exists b n data, last_saved cd legacy m0 h q b n /\ serialize cd b 0 = Ok (Some data) /\
    ((length data <= n /\ load_file cd legacy e (disk m) q = Ok (Some b)) \/
     (header_length (bpar b) <= n < length data /\ load_file cd legacy e (disk m) q = Ok None) \/
     (n < header_length (bpar b) /\ n < length data /\ load_file cd legacy e (disk m) q = UB)).
Proof.
  intros I HP E Hq He. destruct (run_story arch m0 h m l I HP E) as (_ & HS).
  destruct (HS q Hq) as [(HF & Hd)|(b & n & data & H1 & H2 & H3 & H4)].
  - left. split; [exact HF|]. unfold load_file, fread. rewrite He, Hd. destruct I as (_ & I2). rewrite I2 by exact Hq. reflexivity.
  - right. exists b, n, data. split; [exact H1|]. split; [exact H3|]. apply read_torn; auto.
Qed.

(** the last Save is determined by the history *)
Lemma last_saved_at m0 h1 o h2 e i q m1 l1 b : o = MSave e i q \/ o = MKillSave e i q -> can_open e = true ->
  run m0 h1 = Ok (m1, l1) -> nth_error (live m1) i = Some (Some b) -> Forall (fun o' => ~ opens q o') h2 ->
  forall b' n', last_saved cd legacy m0 (h1 ++ o :: h2) q b' n' -> b' = b /\ n' = reaches e.
Proof.
  intros HO He Hr Hb HF b' n' (h1' & o' & h2' & e' & i' & m1' & l1' & Eh & HO' & He' & Hn' & Hr' & Hb' & HF').
  assert (Op : opens q o) by (destruct HO as [-> | ->]; cbn; auto).
  assert (Op' : opens q o') by (destruct HO' as [-> | ->]; cbn; auto).
  assert (h1 = h1' /\ o = o') as (<- & <-).
  { clear - Eh HF HF' Op Op'. revert h1' Eh. induction h1 as [|x h1 IH]; intros [|y h1'] Eh; cbn [app] in Eh.
    - injection Eh as -> _. auto.
    - injection Eh as -> ->. exfalso. rewrite Forall_forall in HF. apply (HF o'); [apply in_elt|exact Op'].
    - injection Eh as -> <-. exfalso. rewrite Forall_forall in HF'. apply (HF' o); [apply in_elt|exact Op].
    - injection Eh as -> Eh. destruct (IH h1' Eh) as (-> & ->). auto. }
  rewrite Hr in Hr'. injection Hr' as <- <-.
  assert (e = e' /\ i = i') as (<- & <-) by (destruct HO as [-> | ->]; destruct HO' as [[=]|[=]]; auto).
  split; [congruence|auto].
Qed.

Lemma durable arch m0 h1 e i q h2 m1 l1 m l b data e' : initial arch m0 -> Forall (proper arch) (h1 ++ MSave e i q :: h2) ->
  run m0 h1 = Ok (m1, l1) -> nth_error (live m1) i = Some (Some b) -> can_open e = true ->
  serialize cd b 0 = Ok (Some data) -> length data <= reaches e ->
  Forall (fun o => ~ opens q o) h2 -> run m0 (h1 ++ MSave e i q :: h2) = Ok (m, l) -> can_open e' = true ->
  load_file cd legacy e' (disk m) q = Ok (Some b).
Proof.
  intros I HP Hr Hb He Es Hn HF E He'.
  assert (Hq : arch q) by (apply Forall_app in HP as (_ & HP); inversion_clear HP; assumption).
  destruct (load_story arch m0 _ m l e' q I HP E Hq He') as [(HF' & _)|(b' & n & d & HLs & Ed & Hc)].
  - exfalso. rewrite Forall_forall in HF'. apply (HF' (MSave e i q)); [apply in_elt|]. cbn. auto.
  - destruct (last_saved_at m0 h1 (MSave e i q) h2 e i q m1 l1 b (or_introl eq_refl) He Hr Hb HF b' n HLs) as (-> & ->).
    assert (d = data) by congruence. subst d.
    destruct Hc as [(_ & H)|[(H & _)|(_ & H & _)]]; [exact H|lia|lia].
Qed.
End Store.

(** ** The library's codecs *)
Section Codecs.
Context {T : Type}.
Lemma wr_Forall {X} (P : X -> Prop) (l l' : list X) i x : wr l i x = Ok l' -> P x -> Forall P l -> Forall P l'.
Proof.
  intros E Hx HF. apply Forall_forall. intros y Hy. destruct (wr_in l l' i x y E Hy) as [-> |]; [exact Hx|].
  rewrite Forall_forall in HF. auto.
Qed.
Lemma rd_Forall {X} (P : X -> Prop) (l : list X) i x : rd l i = Ok x -> Forall P l -> P x.
Proof.
  unfold rd. destruct (nth_error l i) eqn:E; [|discriminate]. intros [= <-] HF. rewrite Forall_forall in HF.
  apply HF. eapply nth_error_In; eauto.
Qed.
Lemma decode_wf lib (of_px : Z -> T) n blob image start im : Forall mwf image ->
  decode_channels lib of_px n blob image start = Ok (true, im) -> Forall mwf im.
Proof.
  intros HW E. unfold decode_channels in E. destruct blob as [|z blob]; [discriminate|].
  destruct (jload lib (z :: blob)) as [img|]; [|discriminate]. apply bind_ok in E as (im' & E & Ei). injection Ei as <-.
  apply (loop_partial n start _ (fun _ im => Forall mwf im) _ _ E).
  - unfold grow. destruct (length image <? start + n); [|exact HW]. unfold resize_dec.
    apply Forall_app. split.
    + rewrite <- (firstn_skipn (start + n) image) in HW. apply Forall_app in HW. apply HW.
    + apply Forall_forall. intros m Hm. apply repeat_spec in Hm. subst m. reflexivity.
  - clear E. intros k im1 im2 Hk H1 E. apply bind_ok in E as (m & Em & E). apply (wr_Forall _ _ _ _ _ E); [|exact H1].
    unfold mbuildM in Em. apply bind_ok in Em as (l & El & Em). injection Em as <-. unfold mwf. cbn [rows cols elts].
    rewrite (mapM_length _ _ _ El), seq_length. reflexivity.
Qed.
Lemma convert_wf f (image im : list (mat T)) start : Forall mwf image -> convert f image start = Ok im -> Forall mwf im.
Proof.
  intros HW E. unfold convert in E. apply bind_ok in E as (u0 & _ & E). apply bind_ok in E as (c0 & _ & E).
  apply (loop_partial _ _ _ (fun _ im => Forall mwf im) _ _ E); [exact HW|]. clear E.
  intros y im1 im2 _ H1 E. apply (loop_partial _ _ _ (fun _ im => Forall mwf im) _ _ E); [exact H1|]. clear E.
  intros x im3 im4 _ H3 E.
  apply bind_ok in E as (m0 & E0 & E). apply bind_ok in E as (m1 & E1 & E). apply bind_ok in E as (m2 & E2 & E).
  apply bind_ok in E as (a & _ & E). apply bind_ok in E as (b & _ & E). apply bind_ok in E as (c & _ & E).
  destruct (f a b c) as [[u v] w].
  apply bind_ok in E as (m0' & F0 & E). apply bind_ok in E as (j0 & J0 & E).
  apply bind_ok in E as (m1' & F1 & E). apply bind_ok in E as (j1 & J1 & E).
  apply bind_ok in E as (m2' & F2 & E).
  pose proof (rd_Forall mwf _ _ _ E0 H3) as W0. pose proof (rd_Forall mwf _ _ _ E1 H3) as W1. pose proof (rd_Forall mwf _ _ _ E2 H3) as W2.
  apply (wr_Forall mwf _ _ _ _ E); [exact (mset_wf _ _ _ _ _ W2 F2)|].
  apply (wr_Forall mwf _ _ _ _ J1); [exact (mset_wf _ _ _ _ _ W1 F1)|].
  apply (wr_Forall mwf _ _ _ _ J0); [exact (mset_wf _ _ _ _ _ W0 F0)|]. exact H3.
Qed.
End Codecs.
Lemma rgb_delivers lib of_px enc n : delivers (ImageCodec word (fun data => rgb_decode lib of_px data [] 0) enc n).
Proof. intros data im E. apply (decode_wf lib of_px 3 data [] 0 im); [constructor|exact E]. Qed.
Lemma gray_delivers lib of_px enc n : delivers (ImageCodec word (fun data => gray_decode lib of_px data [] 0) enc n).
Proof. intros data im E. apply (decode_wf lib of_px 1 data [] 0 im); [constructor|exact E]. Qed.
Lemma hsl_delivers lib of_px f enc n : delivers (ImageCodec word (fun data => hsl_decode lib of_px f data [] 0) enc n).
Proof.
  intros data im E. cbn [icdecode] in E. unfold hsl_decode in E. apply bind_ok in E as ([ok mid] & E1 & E). cbn [fst snd] in E.
  destruct ok; [|discriminate]. apply bind_ok in E as (im' & E2 & E). injection E as <-.
  apply (convert_wf f mid im' 0); [|exact E2]. apply (decode_wf lib of_px 3 data [] 0 mid); [constructor|exact E1].
Qed.
