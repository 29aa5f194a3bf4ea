(** * P_Object2: consequences of the refinement in P_Object. *)
Require Import List Bool Arith ZArith Lia.
Require Import Verif.M_Base Verif.M_Params Verif.M_Buffer Verif.M_View Verif.M_Object Verif.S_Object.
Require Import Verif.P_Base Verif.P_Object.
Import ListNotations.
Open Scope nat_scope.

Section Object.
Context {T : Type} {A : Arith T}.

Lemma reached_ok l (h : heap T) w : reached l h w -> ok h w.
Proof.
  intros (os & E1 & E2). pose proof (run_ok l empty_heap empty_world empty_ok) as H. rewrite E1, E2 in H. apply H.
Qed.
Lemma run_reached l (h : heap T) os : run empty_heap l = Ok (h, os) -> exists w, reached l h w.
Proof.
  intros E. pose proof (run_ok l empty_heap empty_world empty_ok) as H. rewrite E in H.
  destruct (srun empty_world l) as [[w os']| |] eqn:E2; try contradiction. destruct H as [-> _]. exists w, os'. auto.
Qed.
Lemma run_app l l' (h : heap T) : run h (l ++ l') =
  let* r := run h l in let* r' := run (fst r) l' in Ok (fst r', snd r ++ snd r').
Proof.
  revert h. induction l as [|o l IH]; intros h; cbn [app run bind fst snd].
  - destruct (run h l') as [[h' os]| |]; reflexivity.
  - destruct (step h o) as [[h1 o1]| |]; cbn [bind fst snd]; auto. rewrite IH.
    destruct (run h1 l) as [[h2 os]| |]; cbn [bind fst snd]; auto. destruct (run h2 l') as [[h3 os']| |]; reflexivity.
Qed.
(** a step of the heap seen in the world *)
Lemma step_world (h h' : heap T) w o r : ok h w -> step h o = Ok (h', r) -> exists w', sstep w o = Ok (w', r) /\ ok h' w'.
Proof.
  intros K E. pose proof (step_ok h w o K) as H. unfold rel_res in H. rewrite E in H.
  destruct (sstep w o) as [[w' r']| |]; try contradiction. destruct H as [-> K']. eauto.
Qed.
Lemma step_heap (h : heap T) w w' o r : ok h w -> sstep w o = Ok (w', r) -> exists h', step h o = Ok (h', r) /\ ok h' w'.
Proof.
  intros K E. pose proof (step_ok h w o K) as H. unfold rel_res in H. rewrite E in H.
  destruct (step h o) as [[h' r']| |]; try contradiction. destruct H as [-> K']. eauto.
Qed.

Lemma nth_put (w : world T) i j s : nth_error (slots (put w i s)) j =
  if j =? i then (if i <? length (slots w) then Some s else None) else nth_error (slots w) j.
Proof. apply upd_nth. Qed.
Lemma create_slots (w w' : world T) mem r o : create w mem r = Ok (w', o) ->
  forall i, i < length (slots w) -> nth_error (slots w') i = nth_error (slots w) i.
Proof.
  intros E i Hi. unfold create in E. destruct r as [b| |]; try discriminate; [|injection E as <- _; auto].
  destruct mem; injection E as <- _; auto. cbn [slots]. apply nth_error_app1. auto.
Qed.
Lemma quiet_step (w w' : world T) o r i : sstep w o = Ok (w', r) -> ~ touches w o i -> i < length (slots w) ->
  nth_error (slots w') i = nth_error (slots w) i /\ i < length (slots w').
Proof.
  intros E N Hi. assert (H : nth_error (slots w') i = nth_error (slots w) i).
  2:{ split; auto. apply nth_error_Some. rewrite H. apply nth_error_Some. auto. }
  destruct o as [mem p|mem p d|mem k|k|mem k j|k j|k|k data den|k|k v|n data den|mem n|k ch|n sub]; cbn [sstep touches] in E, N.
  - eapply create_slots; eauto.
  - eapply create_slots; eauto.
  - destruct (content w k); try discriminate. cbn [bind] in E. eapply create_slots; eauto.
  - destruct (rd (slots w) k) as [s| |]; try discriminate. cbn [bind] in E.
    assert (E' : slots w' = upd (slots w) k Hollow ++ [s]) by (destruct s; [discriminate| |]; injection E as <- _; reflexivity).
    rewrite E', nth_error_app1 by (rewrite upd_length; auto). rewrite upd_nth. destruct (Nat.eqb_spec i k); [congruence|auto].
  - destruct (alive w k); try discriminate. cbn [bind] in E. destruct (content w j); try discriminate. cbn [bind] in E.
    destruct mem; injection E as <- _; auto. cbn [rebind slots]. rewrite nth_put. destruct (Nat.eqb_spec i k); [congruence|auto].
  - destruct (alive w k); try discriminate. cbn [bind] in E. destruct (rd (slots w) j) as [s| |]; try discriminate. cbn [bind] in E.
    assert (E' : w' = w \/ slots w' = upd (upd (slots w) j Hollow) k s) by (destruct s; [discriminate| |]; destruct (k =? j); injection E as <- _; auto).
    destruct E' as [->| ->]; auto. rewrite !upd_nth. destruct (Nat.eqb_spec i k); [subst; tauto|]. destruct (Nat.eqb_spec i j); [subst; tauto|auto].
  - destruct (alive w k); try discriminate. injection E as <- _. cbn [rebind slots]. rewrite nth_put. destruct (Nat.eqb_spec i k); [congruence|auto].
  - destruct (content w k) as [b| |]; try discriminate. cbn [bind] in E. destruct (decompose b data den); try discriminate. injection E as <- _.
    rewrite nth_put. destruct (Nat.eqb_spec i k); [congruence|auto].
  - destruct (content w k) as [b| |]; try discriminate. injection E as <- _. auto.
  - destruct (alive w k); try discriminate. injection E as <- _. auto.
  - unfold rd in E. destruct (nth_error (views w) n) as [[k v]|]; try discriminate. cbn [bind fst snd] in E.
    destruct (content w k) as [b| |]; try discriminate. cbn [bind] in E. destruct (view_decompose v b data den); try discriminate. injection E as <- _.
    rewrite nth_put. destruct (Nat.eqb_spec i k) as [->|]; [|auto]. exfalso. apply N. eauto.
  - destruct (rd (views w) n) as [[k v]| |]; try discriminate. cbn [bind fst snd] in E. destruct (content w k) as [b| |]; try discriminate. cbn [bind] in E.
    eapply create_slots; eauto.
  - destruct (content w k) as [b| |]; try discriminate. cbn [bind] in E. destruct (rd (bdec b) ch); try discriminate. injection E as <- _. auto.
  - unfold rd in E. destruct (nth_error (owners w) n) as [[[k|] ch]|]; try discriminate. cbn [bind fst snd] in E.
    destruct (content w k) as [b| |]; try discriminate. cbn [bind] in E. destruct (wr (bdec b) ch sub); try discriminate. injection E as <- _.
    rewrite nth_put. destruct (Nat.eqb_spec i k) as [->|]; [|auto]. exfalso. apply N. eauto.
Qed.
Lemma len_slots (h : heap T) w : ok h w -> length (hobjs h) = length (slots w).
Proof. apply len_objs. Qed.

Lemma quiet_run l : forall (h h' : heap T) w os i, ok h w -> run h l = Ok (h', os) -> quiet w l i -> i < length (hobjs h) ->
  holds h' i = holds h i.
Proof.
  induction l as [|o l IH]; intros h h' w os i K E Q Hi; cbn [run] in E.
  - injection E as <- _. reflexivity.
  - destruct (step h o) as [[h1 o1]| |] eqn:E1; try discriminate. cbn [bind fst snd] in E.
    destruct (run h1 l) as [[h2 os2]| |] eqn:E2; try discriminate. cbn [bind fst snd] in E. injection E as <- _.
    destruct (step_world h h1 w o o1 K E1) as (w1 & S1 & K1). cbn [quiet] in Q. rewrite S1 in Q. destruct Q as [Q1 Q2].
    rewrite (len_slots h w K) in Hi. destruct (quiet_step w w1 o o1 i S1 Q1 Hi) as [H1 H2].
    rewrite (IH h1 h2 w1 os2 i K1 E2 Q2) by (rewrite (len_slots h1 w1 K1); auto).
    rewrite (ok_holds h1 w1 i K1), (ok_holds h w i K). exact H1.
Qed.

Lemma memory (h : heap T) w : ok h w ->
  (forall i j a, owns h i a -> owns h j a -> i = j) /\
  (forall i a, owns h i a -> exists b, nth_error (hcells h) a = Some (Some b) /\ holds h i = Some (Full b)) /\
  (forall a b, nth_error (hcells h) a = Some (Some b) -> exists i, owns h i a) /\
  ((forall i b, holds h i <> Some (Full b)) -> forall a b, nth_error (hcells h) a <> Some (Some b)).
Proof.
  intros K. assert (H2 : forall i a, owns h i a -> exists b, nth_error (hcells h) a = Some (Some b) /\ holds h i = Some (Full b)).
  { intros i a HO. destruct (nth_error (slots w) i) as [s|] eqn:E.
    - destruct (slot_obj h w K i s E) as (o & Eo & R). unfold owns in HO. assert (o = Some (Some a)) by congruence. subst o.
      destruct s as [| |b]; cbn in R; try contradiction. exists b. split; auto. rewrite (ok_holds h w i K). exact E.
    - apply (no_obj h w K) in E. unfold owns in HO. congruence. }
  destruct K as [K1 K2 K3 K4 K5]. split; [exact K2|]. split; [exact H2|]. split; [exact K3|].
  intros HN a b E. destruct (K3 a b E) as (i & HO). destruct (H2 i a HO) as (b' & _ & HH). exact (HN i b' HH).
Qed.

(** an exception changes nothing *)
Lemma raised (h h' : heap T) o : step h o = Ok (h', Raised) -> h' = h.
Proof.
  intros E. destruct o as [mem p|mem p d|mem k|k|mem k j|k j|k|k data den|k|k v|n data den|mem n|k ch|n sub]; cbn [step] in E.
  all: repeat match type of E with
    | bind ?r _ = _ => destruct r; cbn [bind] in E; try discriminate
    end; try (injection E; congruence); try discriminate.
  all: try (unfold construct in E; repeat match type of E with
    | match ?r with _ => _ end = _ => destruct r; try discriminate
    end; try discriminate; injection E; congruence).
  destruct mem; [|injection E; congruence]. cbn [alloc] in E.
  match type of E with bind ?r _ = _ => destruct r; cbn [bind] in E; try discriminate end.
Qed.

Lemma full_content (h : heap T) w i b : ok h w -> holds h i = Some (Full b) -> content w i = Ok b /\ nth_error (slots w) i = Some (Full b).
Proof.
  intros K H. rewrite (ok_holds h w i K) in H. split; auto. unfold content, rd. rewrite H. reflexivity.
Qed.
Lemma copy_new (h : heap T) w i b : ok h w -> holds h i = Some (Full b) ->
  exists h', step h (OCopy true i) = Ok (h', Did true) /\ holds h' (length (hobjs h)) = Some (Full b) /\ holds h' i = Some (Full b) /\
    forall a, owns h' (length (hobjs h)) a -> nth_error (hcells h) a = None.
Proof.
  intros K H. destruct (full_content h w i b K H) as [EC ES].
  destruct (step_heap h w _ (OCopy true i) (Did true) K ltac:(cbn [sstep]; rewrite EC; cbn [bind create]; reflexivity)) as (h' & E & K').
  exists h'. split; [exact E|]. pose proof (len_slots h w K) as LO. split; [|split].
  - rewrite (ok_holds _ _ _ K'). cbn [slots]. rewrite app_nth, LO, Nat.ltb_irrefl, Nat.eqb_refl. reflexivity.
  - rewrite (ok_holds _ _ _ K'). cbn [slots]. rewrite nth_error_app1; auto. eapply nth_some_lt; eauto.
  - cbn [step] in E. rewrite (deref_content h w K i), EC in E. cbn [bind construct alloc] in E. injection E as <-.
    intros a. unfold owns, new_object, set_objs, set_cells. cbn [hobjs hcells]. rewrite app_nth, Nat.ltb_irrefl, Nat.eqb_refl.
    intros Ea. injection Ea as <-. apply nth_error_None. auto.
Qed.
Lemma assigned (h : heap T) w i j b s : ok h w -> holds h i = Some s -> s <> Gone -> holds h j = Some (Full b) ->
  exists h', step h (OAssign true i j) = Ok (h', Did true) /\ holds h' i = Some (Full b) /\
    forall k, k <> i -> holds h' k = holds h k.
Proof.
  intros K HI NG H. destruct (full_content h w j b K H) as [EC ES].
  assert (HI' := HI). rewrite (ok_holds h w i K) in HI'.
  assert (EA : alive w i = Ok tt) by (unfold alive, rd; rewrite HI'; cbn [bind]; destruct s; [congruence|auto|auto]).
  destruct (step_heap h w _ (OAssign true i j) (Did true) K ltac:(cbn [sstep]; rewrite EA, EC; cbn [bind]; reflexivity)) as (h' & E & K').
  exists h'. split; [exact E|]. assert (Li : i < length (slots w)) by (eapply nth_some_lt; eauto).
  split; [|intros k N; rewrite (ok_holds _ _ _ K)]; rewrite (ok_holds _ _ _ K'); cbn [rebind slots]; rewrite nth_put.
  - rewrite Nat.eqb_refl. destruct (Nat.ltb_spec i (length (slots w))); [auto|lia].
  - destruct (Nat.eqb_spec k i); [congruence|auto].
Qed.
Lemma moved (h : heap T) w i s : ok h w -> holds h i = Some s -> s <> Gone ->
  exists h', step h (OMove i) = Ok (h', Did true) /\ holds h' (length (hobjs h)) = Some s /\ holds h' i = Some Hollow /\
    hcells h' = hcells h /\ forall k, k <> i -> k < length (hobjs h) -> holds h' k = holds h k.
Proof.
  intros K HI NG. assert (HI' := HI). rewrite (ok_holds h w i K) in HI'.
  assert (Li : i < length (slots w)) by (eapply nth_some_lt; eauto). pose proof (len_slots h w K) as LO.
  destruct (step_heap h w (rebind (World (upd (slots w) i Hollow ++ [s]) (views w) (owners w)) i (Some (length (slots w)))) (OMove i) (Did true) K) as (h' & E & K').
  { cbn [sstep]. unfold rd. rewrite HI'. cbn [bind]. destruct s; [congruence|auto|auto]. }
  exists h'. split; [exact E|].
  assert (HH : forall k, holds h' k = nth_error (upd (slots w) i Hollow ++ [s]) k) by (intros k; rewrite (ok_holds _ _ _ K'); reflexivity).
  rewrite !HH. rewrite app_nth, upd_length, LO, Nat.ltb_irrefl, Nat.eqb_refl. split; [auto|]. split; [|split].
  - rewrite app_nth, upd_length, upd_nth, Nat.eqb_refl. destruct (Nat.ltb_spec i (length (slots w))); [auto|lia].
  - cbn [step] in E. unfold release in E. destruct (impl_of h i); try discriminate. cbn [bind] in E. destruct (wr (hobjs h) i (Some None)); try discriminate.
    injection E as <-. reflexivity.
  - intros k N Hk. rewrite HH, app_nth, upd_length, upd_nth. destruct (Nat.ltb_spec k (length (slots w))); [|lia].
    destruct (Nat.eqb_spec k i); [congruence|]. rewrite (ok_holds _ _ _ K). reflexivity.
Qed.
Lemma move_assigned (h : heap T) w i j si sj : ok h w -> holds h i = Some si -> si <> Gone -> holds h j = Some sj -> sj <> Gone ->
  exists h', step h (OMoveAssign i j) = Ok (h', Did true) /\ holds h' i = Some sj /\ (i <> j -> holds h' j = Some Hollow) /\
    (forall k, k <> i -> k <> j -> holds h' k = holds h k) /\ length (hobjs h') = length (hobjs h) /\
    (si = Hollow -> hcells h' = hcells h).
Proof.
  intros K HI NG HJ NJ. assert (HI' := HI). assert (HJ' := HJ). rewrite (ok_holds h w i K) in HI'. rewrite (ok_holds h w j K) in HJ'.
  assert (Li : i < length (slots w)) by (eapply nth_some_lt; eauto). assert (Lj : j < length (slots w)) by (eapply nth_some_lt; eauto).
  assert (EA : alive w i = Ok tt) by (unfold alive, rd; rewrite HI'; cbn [bind]; destruct si; [congruence|auto|auto]).
  destruct (step_heap h w (if i =? j then w else rebind (rebind (put (put w j Hollow) i sj) i None) j (Some i)) (OMoveAssign i j) (Did true) K) as (h' & E & K').
  { cbn [sstep]. rewrite EA. unfold rd. rewrite HJ'. cbn [bind]. destruct (i =? j), sj; congruence || auto. }
  exists h'. split; [exact E|].
  assert (HH : forall k, holds h' k = if i =? j then holds h k else nth_error (upd (upd (slots w) j Hollow) i sj) k).
  { intros k. rewrite (ok_holds _ _ _ K'). destruct (i =? j); [symmetry; apply ok_holds; auto|reflexivity]. }
  assert (LL : length (hobjs h') = length (hobjs h)).
  { rewrite (len_slots _ _ K'), (len_slots _ _ K). destruct (i =? j); [auto|]. cbn [rebind put slots]. rewrite !upd_length. reflexivity. }
  rewrite !HH. split; [|split; [|split; [|split; [exact LL|]]]].
  - destruct (Nat.eqb_spec i j) as [->|]; [congruence|]. rewrite upd_nth, Nat.eqb_refl, upd_length. destruct (Nat.ltb_spec i (length (slots w))); [auto|lia].
  - intros N. destruct (Nat.eqb_spec i j); [congruence|]. rewrite !upd_nth, Nat.eqb_refl. destruct (Nat.eqb_spec j i); [congruence|].
    destruct (Nat.ltb_spec j (length (slots w))); [auto|lia].
  - intros k N1 N2. rewrite HH. destruct (i =? j); [auto|]. rewrite !upd_nth. destruct (Nat.eqb_spec k i); [congruence|].
    destruct (Nat.eqb_spec k j); [congruence|]. symmetry. apply ok_holds; auto.
  - intros ->. destruct (slot_obj h w K i Hollow HI') as (o & Eo & R). destruct o as [[a|]|]; cbn in R; try contradiction.
    cbn [step] in E. unfold release, reset, impl_of, rd in E. rewrite Eo in E. cbn [bind] in E.
    destruct (nth_error (hobjs h) j) as [[q|]|] eqn:Ej; try discriminate. cbn [bind] in E. rewrite wr_lt in E by (eapply nth_some_lt; eauto).
    cbn [bind fst snd set_objs hobjs] in E. rewrite upd_nth in E. destruct (Nat.eqb_spec i j) as [->|N].
    + destruct (j <? length (hobjs h)); [|discriminate]. cbn [bind] in E. unfold wr in E. destruct (_ <? _); [|discriminate]. injection E as <-. reflexivity.
    + rewrite Eo in E. cbn [bind] in E. unfold wr in E. destruct (_ <? _); [|discriminate]. injection E as <-. reflexivity.
Qed.
Lemma destroyed (h : heap T) w i s : ok h w -> holds h i = Some s -> s <> Gone ->
  exists h', step h (ODestroy i) = Ok (h', Did true) /\ holds h' i = Some Gone /\ (forall k, k <> i -> holds h' k = holds h k) /\
    (s = Hollow -> hcells h' = hcells h).
Proof.
  intros K HI NG. assert (HI' := HI). rewrite (ok_holds h w i K) in HI'.
  assert (Li : i < length (slots w)) by (eapply nth_some_lt; eauto).
  assert (EA : alive w i = Ok tt) by (unfold alive, rd; rewrite HI'; cbn [bind]; destruct s; [congruence|auto|auto]).
  destruct (step_heap h w _ (ODestroy i) (Did true) K ltac:(cbn [sstep]; rewrite EA; cbn [bind]; reflexivity)) as (h' & E & K').
  exists h'. split; [exact E|]. split; [|split]; [| |].
  - rewrite (ok_holds _ _ _ K'). cbn [rebind slots]. rewrite nth_put, Nat.eqb_refl. destruct (Nat.ltb_spec i (length (slots w))); [auto|lia].
  - intros k N. rewrite (ok_holds _ _ _ K'), (ok_holds _ _ _ K). cbn [rebind slots]. rewrite nth_put. destruct (Nat.eqb_spec k i); [congruence|auto].
  - intros ->. destruct (slot_obj h w K i Hollow HI') as (o & Eo & R). destruct o as [[a|]|]; cbn in R; try contradiction.
    cbn [step] in E. unfold impl_of, rd in E. rewrite Eo in E. cbn [bind] in E. unfold wr in E. destruct (_ <? _); [|discriminate]. injection E as <-. reflexivity.
Qed.
Lemma step_ok' (h h' : heap T) w o r : ok h w -> step h o = Ok (h', r) -> exists w', ok h' w'.
Proof. intros K E. destruct (step_world h h' w o r K E) as (w' & _ & K'). eauto. Qed.

(** std::swap: a move construction and two move assignments *)
Lemma swapped (h : heap T) w i j si sj : ok h w -> holds h i = Some si -> si <> Gone -> holds h j = Some sj -> sj <> Gone ->
  exists h', run h [OMove i; OMoveAssign i j; OMoveAssign j (length (hobjs h)); ODestroy (length (hobjs h))] = Ok (h', repeat (Did true) 4) /\
    holds h' i = Some sj /\ holds h' j = Some si /\ hcells h' = hcells h /\
    forall k, k <> i -> k <> j -> k < length (hobjs h) -> holds h' k = holds h k.
Proof.
  intros K HI NI HJ NJ. set (n := length (hobjs h)).
  assert (Li : i < n) by (unfold holds in HI; unfold n; apply nth_error_Some; destruct (nth_error (hobjs h) i); congruence).
  assert (Lj : j < n) by (unfold holds in HJ; unfold n; apply nth_error_Some; destruct (nth_error (hobjs h) j); congruence).
  destruct (moved h w i si K HI NI) as (h1 & E1 & A1 & A2 & A3 & A4). fold n in A1, A4. destruct (step_ok' _ _ _ _ _ K E1) as (w1 & K1).
  assert (J1 : exists s1, holds h1 j = Some s1 /\ s1 <> Gone /\ (i <> j -> s1 = sj) /\ (i = j -> s1 = Hollow)).
  { destruct (Nat.eq_dec i j) as [->|N].
    - exists Hollow. repeat split; auto; congruence.
    - exists sj. rewrite A4 by auto. repeat split; auto; congruence. }
  destruct J1 as (s1 & J1 & N1 & J2 & J3).
  destruct (move_assigned h1 w1 i j Hollow s1 K1 A2 ltac:(discriminate) J1 N1) as (h2 & E2 & B1 & B2 & B3 & _ & B5).
  destruct (step_ok' _ _ _ _ _ K1 E2) as (w2 & K2).
  assert (N2 : holds h2 n = Some si) by (rewrite B3 by lia; exact A1).
  assert (J4 : holds h2 j = Some Hollow) by (destruct (Nat.eq_dec i j) as [Eij|N]; [rewrite <- Eij, B1, (J3 Eij); auto|auto]).
  destruct (move_assigned h2 w2 j n Hollow si K2 J4 ltac:(discriminate) N2 NI) as (h3 & E3 & C1 & C2 & C3 & _ & C5).
  destruct (step_ok' _ _ _ _ _ K2 E3) as (w3 & K3).
  destruct (destroyed h3 w3 n Hollow K3 (C2 ltac:(lia)) ltac:(discriminate)) as (h4 & E4 & D1 & D2 & D3).
  exists h4. split; [cbn [run]; rewrite E1; cbn [bind fst snd]; rewrite E2; cbn [bind fst snd]; rewrite E3; cbn [bind fst snd]; rewrite E4; reflexivity|].
  split; [|split; [|split]].
  - rewrite D2 by lia. destruct (Nat.eq_dec i j) as [Eij|N].
    + rewrite <- Eij in C1. rewrite C1. rewrite <- Eij in HJ. congruence.
    + rewrite C3 by lia. rewrite B1. f_equal. auto.
  - rewrite D2 by lia. exact C1.
  - rewrite D3, C5, B5, A3 by auto. reflexivity.
  - intros k Ni Nj Hk. rewrite D2, C3, B3, A4 by lia. reflexivity.
Qed.

(** a view sees what the object holds when the view is used *)
Lemma view_follows (h : heap T) w n i v b c : ok h w -> nth_error (hviews h) n = Some (i, v) -> holds h i = Some (Full b) ->
  view_cast v b = Ok c -> exists h', step h (OViewCast true n) = Ok (h', Did true) /\ holds h' (length (hobjs h)) = Some (Full c) /\
    forall k, k < length (hobjs h) -> holds h' k = holds h k.
Proof.
  intros K HV H EV. destruct (full_content h w i b K H) as [EC ES]. pose proof (len_slots h w K) as LO.
  destruct (step_heap h w _ (OViewCast true n) (Did true) K ltac:(cbn [sstep]; rewrite <- (ok_views _ _ K); unfold rd; rewrite HV; cbn [bind fst snd]; rewrite EC; cbn [bind]; rewrite EV; cbn [create]; reflexivity)) as (h' & E & K').
  exists h'. split; [exact E|]. split; [|intros k Hk; rewrite (ok_holds _ _ _ K)]; rewrite (ok_holds _ _ _ K'); cbn [slots]; rewrite app_nth, ?LO.
  - rewrite Nat.ltb_irrefl, Nat.eqb_refl. reflexivity.
  - destruct (Nat.ltb_spec k (length (slots w))); [auto|lia].
Qed.
(** views are kept *)
Lemma views_grow (h h' : heap T) o r : step h o = Ok (h', r) -> exists l, hviews h' = hviews h ++ l.
Proof.
  assert (FR : forall (x : heap T) q y, free x q = Ok y -> hviews y = hviews x).
  { intros x q y. unfold free. destruct q as [a|]; [|intros E; injection E as <-; auto]. destruct (load x a); try discriminate. cbn [bind].
    destruct (wr (hcells x) a None); try discriminate. intros E; injection E as <-. reflexivity. }
  assert (RS : forall (x : heap T) i q y, reset x i q = Ok y -> hviews y = hviews x).
  { intros x i q y. unfold reset. destruct (impl_of x i); try discriminate. cbn [bind]. destruct (wr (hobjs x) i (Some q)); try discriminate. cbn [bind].
    intros E. apply FR in E. exact E. }
  assert (SV : forall (x : heap T) a b y, save x a b = Ok y -> hviews y = hviews x).
  { intros x a b y. unfold save. destruct (load x a); try discriminate. cbn [bind]. destruct (wr (hcells x) a (Some b)); try discriminate. intros E; injection E as <-. reflexivity. }
  assert (CO : forall m q y z, construct h m q = Ok (y, z) -> hviews y = hviews h).
  { intros m q y z. unfold construct. destruct q as [b| |]; try discriminate; [destruct m|]; intros E; injection E as <- _; reflexivity. }
  intros E. destruct o as [mem p|mem p d|mem k|k|mem k j|k j|k|k data den|k|k v|n data den|mem n|k ch|n sub]; cbn [step] in E.
  10:{ destruct (impl_of h k); try discriminate. injection E as <- _. eexists. reflexivity. }
  all: exists []; rewrite app_nil_r.
  - eapply CO; eauto.
  - eapply CO; eauto.
  - destruct (deref h k); try discriminate. cbn [bind] in E. eapply CO; eauto.
  - unfold release in E. destruct (impl_of h k); try discriminate. cbn [bind] in E. destruct (wr (hobjs h) k (Some None)); try discriminate. injection E as <- _. reflexivity.
  - destruct (impl_of h k); try discriminate. cbn [bind] in E. destruct (deref h j); try discriminate. cbn [bind] in E. destruct mem; [|injection E as <- _; auto].
    cbn [alloc] in E. match type of E with bind ?x _ = _ => destruct x eqn:ER; try discriminate end. apply RS in ER. injection E as <- _. exact ER.
  - destruct (impl_of h k); try discriminate. cbn [bind] in E. unfold release in E. destruct (impl_of h j); try discriminate. cbn [bind] in E.
    destruct (wr (hobjs h) j (Some None)); try discriminate. cbn [bind fst snd] in E.
    match type of E with bind ?x _ = _ => destruct x eqn:ER; try discriminate end. apply RS in ER. injection E as <- _. exact ER.
  - destruct (impl_of h k); try discriminate. cbn [bind] in E. destruct (wr (hobjs h) k None); try discriminate. cbn [bind] in E.
    match type of E with bind ?x _ = _ => destruct x eqn:ER; try discriminate end. apply FR in ER. injection E as <- _. exact ER.
  - destruct (cell_of h k) as [a| |]; try discriminate. cbn [bind] in E. destruct (load h a) as [b| |]; try discriminate. cbn [bind] in E. destruct (decompose b data den) as [x| |]; try discriminate. cbn [bind] in E.
    destruct (save h a (snd x)) eqn:ER; try discriminate. apply SV in ER. injection E as <- _. exact ER.
  - destruct (deref h k); try discriminate. injection E as <- _. reflexivity.
  - destruct (rd (hviews h) n) as [[k v]| |]; try discriminate. cbn [bind fst snd] in E.
    destruct (cell_of h k) as [a| |]; try discriminate. cbn [bind] in E. destruct (load h a) as [b| |]; try discriminate. cbn [bind] in E. destruct (view_decompose v b data den) as [x| |]; try discriminate. cbn [bind] in E.
    destruct (save h a (snd x)) eqn:ER; try discriminate. apply SV in ER. injection E as <- _. exact ER.
  - destruct (rd (hviews h) n) as [[k v]| |]; try discriminate. cbn [bind fst snd] in E. destruct (deref h k); try discriminate. cbn [bind] in E. eapply CO; eauto.
  - destruct (cell_of h k) as [a| |]; try discriminate. cbn [bind] in E. destruct (load h a) as [b| |]; try discriminate. cbn [bind] in E. destruct (rd (bdec b) ch); try discriminate. injection E as <- _. reflexivity.
  - destruct (rd (hrefs h) n) as [[a c]| |]; try discriminate. cbn [bind fst snd] in E. destruct (load h a) as [b| |]; try discriminate. cbn [bind] in E. destruct (wr (bdec b) c sub) as [x| |]; try discriminate. cbn [bind] in E.
    destruct (save h a _) eqn:ER; try discriminate. apply SV in ER. injection E as <- _. exact ER.
Qed.
Lemma views_kept l : forall (h h' : heap T) os n v, run h l = Ok (h', os) -> nth_error (hviews h) n = Some v -> nth_error (hviews h') n = Some v.
Proof.
  induction l as [|o l IH]; intros h h' os n v E H; cbn [run] in E; [injection E as <- _; auto|].
  destruct (step h o) as [[h1 o1]| |] eqn:E1; try discriminate. cbn [bind fst snd] in E. destruct (run h1 l) as [[h2 o2]| |] eqn:E2; try discriminate. injection E as <- _.
  apply (IH h1 h2 o2 n v E2). destruct (views_grow h h1 o o1 E1) as (x & ->). rewrite nth_error_app1; auto. eapply nth_some_lt; eauto.
Qed.

(** a reference follows the contents into another object and dies with them *)
Lemma ref_made (h : heap T) w i b ch x : ok h w -> holds h i = Some (Full b) -> nth_error (bdec b) ch = Some x ->
  exists h', step h (ORef i ch) = Ok (h', Did true) /\ ok h' (World (slots w) (views w) (owners w ++ [(Some i, ch)])) /\
    length (hrefs h) = length (owners w) /\ hobjs h' = hobjs h /\ hcells h' = hcells h.
Proof.
  intros K H E. destruct (full_content h w i b K H) as [EC ES].
  destruct (step_heap h w (World (slots w) (views w) (owners w ++ [(Some i, ch)])) (ORef i ch) (Did true) K) as (h' & E' & K').
  { cbn [sstep]. rewrite EC. cbn [bind]. unfold rd. rewrite E. reflexivity. }
  exists h'. split; [exact E'|]. split; [exact K'|]. split; [eapply F2_length, K|].
  cbn [step] in E'. destruct (cell_of h i) as [a| |]; try discriminate. cbn [bind] in E'. destruct (load h a) as [b0| |]; try discriminate. cbn [bind] in E'.
  destruct (rd (bdec b0) ch); try discriminate. injection E' as <-. auto.
Qed.
Lemma ref_write (h : heap T) w n i b ch sub d : ok h w -> nth_error (owners w) n = Some (Some i, ch) -> nth_error (slots w) i = Some (Full b) ->
  wr (bdec b) ch sub = Ok d ->
  exists h', step h (ORefWrite n sub) = Ok (h', Did true) /\ holds h' i = Some (Full (Buffer (bpar b) d)) /\ forall k, k <> i -> holds h' k = holds h k.
Proof.
  intros K EO ES EW.
  destruct (step_heap h w (put w i (Full (Buffer (bpar b) d))) (ORefWrite n sub) (Did true) K) as (h' & E' & K').
  { cbn [sstep]. unfold rd. rewrite EO. cbn [bind fst snd]. unfold content, rd. rewrite ES. cbn [bind]. rewrite EW. reflexivity. }
  exists h'. split; [exact E'|]. split.
  - rewrite (ok_holds _ _ _ K'), nth_put, Nat.eqb_refl. destruct (Nat.ltb_spec i (length (slots w))); auto. apply nth_some_lt in ES. lia.
  - intros k N. rewrite (ok_holds _ _ _ K'), (ok_holds _ _ _ K), nth_put. destruct (Nat.eqb_spec k i); [congruence|auto].
Qed.
Lemma ref_dead (h : heap T) w n ch sub : ok h w -> nth_error (owners w) n = Some (None, ch) -> step h (ORefWrite n sub) = UB.
Proof.
  intros K EO. pose proof (step_ok h w (ORefWrite n sub) K) as H. unfold rel_res in H.
  assert (E : sstep w (ORefWrite n sub) = UB) by (cbn [sstep]; unfold rd; rewrite EO; reflexivity). rewrite E in H.
  destruct (step h (ORefWrite n sub)) as [[]| |]; try contradiction. reflexivity.
Qed.
Lemma references (h h1 : heap T) w i b ch x sub : ok h w -> holds h i = Some (Full b) -> nth_error (bdec b) ch = Some x -> step h (ORef i ch) = Ok (h1, Did true) ->
  (exists h2, step h1 (ORefWrite (length (hrefs h)) sub) = Ok (h2, Did true) /\ holds h2 i = Some (Full (Buffer (bpar b) (upd (bdec b) ch sub))) /\
     forall k, k <> i -> holds h2 k = holds h k) /\
  (exists h2 h3, step h1 (OMove i) = Ok (h2, Did true) /\ step h2 (ORefWrite (length (hrefs h)) sub) = Ok (h3, Did true) /\
     holds h3 (length (hobjs h)) = Some (Full (Buffer (bpar b) (upd (bdec b) ch sub))) /\ holds h3 i = Some Hollow) /\
  (forall j h2, step h1 (OAssign true i j) = Ok (h2, Did true) -> step h2 (ORefWrite (length (hrefs h)) sub) = UB) /\
  (forall j h2, i <> j -> step h1 (OMoveAssign i j) = Ok (h2, Did true) -> step h2 (ORefWrite (length (hrefs h)) sub) = UB) /\
  (forall h2, step h1 (ODestroy i) = Ok (h2, Did true) -> step h2 (ORefWrite (length (hrefs h)) sub) = UB).
Proof.
  intros K H Ex E. destruct (ref_made h w i b ch x K H Ex) as (h1' & E' & K1 & LR & EO & EC). assert (h1' = h1) by congruence. subst h1'. clear E'.
  destruct (full_content h w i b K H) as [_ ES]. pose proof (nth_some_lt _ _ _ Ex) as Lc. pose proof (nth_some_lt _ _ _ ES) as Li.
  assert (NL : forall o, nth_error (owners w ++ [o]) (length (hrefs h)) = Some o) by (intros o; rewrite LR, app_nth, Nat.ltb_irrefl, Nat.eqb_refl; auto).
  assert (EW : wr (bdec b) ch sub = Ok (upd (bdec b) ch sub)) by (apply wr_lt; auto).
  pose proof (len_slots h w K) as LO.
  split; [|split; [|split; [|split]]].
  - destruct (ref_write h1 _ (length (hrefs h)) i b ch sub _ K1 (NL _) ES EW) as (h2 & E2 & H2 & H3). exists h2. split; [exact E2|]. split; [exact H2|].
    intros k N. rewrite (H3 k N), (ok_holds _ _ _ K1), (ok_holds _ _ _ K). reflexivity.
  - destruct (step_heap h1 _ (rebind (World (upd (slots w) i Hollow ++ [Full b]) (views w) (owners w ++ [(Some i, ch)])) i (Some (length (slots w)))) (OMove i) (Did true) K1) as (h2 & E2 & K2).
    { cbn [sstep slots views owners]. unfold rd. rewrite ES. reflexivity. }
    destruct (ref_write h2 _ (length (hrefs h)) (length (slots w)) b ch sub (upd (bdec b) ch sub) K2) as (h3 & E3 & H3 & H4).
    + cbn [rebind owners]. rewrite nth_error_map, NL. cbn [option_map fst snd]. rewrite Nat.eqb_refl. reflexivity.
    + cbn [rebind slots]. rewrite app_nth, upd_length, Nat.ltb_irrefl, Nat.eqb_refl. reflexivity.
    + exact EW.
    + exists h2, h3. rewrite LO. split; [exact E2|]. split; [exact E3|]. split; [exact H3|]. rewrite H4 by lia. rewrite (ok_holds _ _ _ K2).
      cbn [rebind slots]. rewrite app_nth, upd_length, upd_nth, Nat.eqb_refl. destruct (Nat.ltb_spec i (length (slots w))); [auto|lia].
  - intros j h2 E2. destruct (step_world h1 h2 _ _ _ K1 E2) as (w2 & S2 & K2). eapply (ref_dead h2 w2 _ ch sub K2).
    cbn [sstep] in S2. destruct (alive _ i); try discriminate. cbn [bind] in S2. destruct (content _ j) as [b2| |]; try discriminate. cbn [bind] in S2. injection S2 as <-.
    cbn [rebind put owners]. rewrite nth_error_map, NL. cbn [option_map fst snd]. rewrite Nat.eqb_refl. reflexivity.
  - intros j h2 NE E2. destruct (step_world h1 h2 _ _ _ K1 E2) as (w2 & S2 & K2). eapply (ref_dead h2 w2 _ ch sub K2).
    cbn [sstep] in S2. destruct (alive _ i); try discriminate. cbn [bind] in S2. destruct (rd _ j) as [s2| |]; try discriminate. cbn [bind] in S2.
    assert (S3 : w2 = rebind (rebind (put (put (World (slots w) (views w) (owners w ++ [(Some i, ch)])) j Hollow) i s2) i None) j (Some i)).
    { destruct (Nat.eqb_spec i j); [congruence|]. destruct s2; [discriminate| |]; injection S2 as <-; reflexivity. }
    rewrite S3. cbn [rebind put owners]. rewrite !nth_error_map, NL. cbn [option_map fst snd]. rewrite Nat.eqb_refl. reflexivity.
  - intros h2 E2. destruct (step_world h1 h2 _ _ _ K1 E2) as (w2 & S2 & K2). eapply (ref_dead h2 w2 _ ch sub K2).
    cbn [sstep] in S2. destruct (alive _ i); try discriminate. cbn [bind] in S2. injection S2 as <-.
    cbn [rebind put owners]. rewrite nth_error_map, NL. cbn [option_map fst snd]. rewrite Nat.eqb_refl. reflexivity.
Qed.
End Object.
