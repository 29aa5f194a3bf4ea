(** * P_Object3: proper use never fails. *)
Require Import List Bool Arith ZArith Lia.
Require Import Verif.M_Base Verif.M_Params Verif.M_Buffer Verif.M_View Verif.M_Object.
Require Import Verif.S_Params Verif.S_Buffer Verif.S_Object Verif.S_Object2.
Require Import Verif.P_Base Verif.P_Params Verif.P_Impl Verif.P_Api Verif.P_Api2 Verif.P_Damage Verif.P_Object Verif.P_Object2.
Import ListNotations.
Open Scope nat_scope.

Section Object.
Context {T : Type} {A : Arith T}.
Notation world := (world T).

Record good (w : world) : Prop := {
  good_whole : forall i b, full w i b -> whole b;
  good_refs : forall n i ch, nth_error (owners w) n = Some (Some i, ch) -> exists b, full w i b /\ ch < length (bdec b)
}.
Lemma good_empty : good empty_world.
Proof. constructor; unfold full; cbn; intros; match goal with H : nth_error [] ?x = _ |- _ => destruct x; discriminate end. Qed.

(** contents replaced by others with as many channels *)
Lemma good_put w i b b' : good w -> full w i b -> whole b' -> length (bdec b') = length (bdec b) -> good (put w i (Full b')).
Proof.
  intros [G1 G2] HF HW HL. pose proof (nth_some_lt _ _ _ HF) as Li. constructor.
  - intros k x. unfold full. rewrite nth_put. destruct (Nat.eqb_spec k i) as [->|]; [|apply G1].
    destruct (i <? length (slots w)); [|discriminate]. intros E. injection E as <-. exact HW.
  - intros n k ch E. destruct (G2 n k ch E) as (x & Hx & Hc). unfold full in *. rewrite nth_put. destruct (Nat.eqb_spec k i) as [->|]; [|eauto].
    destruct (Nat.ltb_spec i (length (slots w))); [|lia]. exists b'. split; auto. assert (x = b) by congruence. subst x. lia.
Qed.
Lemma good_create w mem r : good w -> (forall b, r = Ok b -> whole b) -> r <> UB ->
  exists w' o, create w mem r = Ok (w', o) /\ good w' /\ (o = Did true \/ o = Raised /\ (mem = false \/ r = Throw)).
Proof.
  intros [G1 G2] HW NU. destruct r as [b| |]; cbn [create]; [|exists w, Raised; split; auto; split; [constructor; auto|auto]|congruence].
  destruct mem; [|exists w, Raised; split; auto; split; [constructor; auto|auto]].
  eexists. eexists. split; [reflexivity|]. split; [|auto]. constructor.
  - intros i x. unfold full. cbn [slots]. rewrite app_nth. destruct (i <? length (slots w)); [apply G1|]. destruct (i =? length (slots w)); [|discriminate].
    intros E. injection E as <-. auto.
  - intros n i ch E. destruct (G2 n i ch E) as (x & Hx & Hc). exists x. split; auto. unfold full in *. cbn [slots]. rewrite nth_error_app1; auto. eapply nth_some_lt; eauto.
Qed.
(** references of a lost object go nowhere, of a moved one along *)
Lemma good_drop w i s : good w -> (forall b, s = Full b -> whole b) -> good (rebind (put w i s) i None).
Proof.
  intros [G1 G2] HW. constructor.
  - intros k x. unfold full. cbn [rebind slots]. rewrite nth_put. destruct (Nat.eqb_spec k i) as [->|]; [|apply G1].
    destruct (i <? length (slots w)); [|discriminate]. intros E. injection E as E. auto.
  - intros n k ch. cbn [rebind put owners]. rewrite nth_error_map. destruct (nth_error (owners w) n) as [[[j|] c]|] eqn:EO; cbn [option_map fst snd]; try discriminate.
    destruct (Nat.eqb_spec j i) as [->|N]; [discriminate|]. intros E. injection E as <- <-. destruct (G2 n j c EO) as (x & Hx & Hc). exists x. split; auto.
    unfold full in *. cbn [rebind slots]. rewrite nth_put. destruct (Nat.eqb_spec j i); [congruence|auto].
Qed.
Lemma good_move w i j s : good w -> i <> j -> i < length (slots w) -> nth_error (slots w) j = Some s -> s <> Gone ->
  good (rebind (rebind (put (put w j Hollow) i s) i None) j (Some i)).
Proof.
  intros [G1 G2] N Li ES NG. pose proof (nth_some_lt _ _ _ ES) as Lj.
  assert (UO : forall k, nth_error (upd (upd (slots w) j Hollow) i s) k = if k =? i then Some s else if k =? j then Some Hollow else nth_error (slots w) k).
  { intros k. rewrite !upd_nth, upd_length. destruct (Nat.ltb_spec i (length (slots w))), (Nat.ltb_spec j (length (slots w))); auto; lia. }
  constructor.
  - intros k x. unfold full. cbn [rebind put slots]. rewrite UO. destruct (k =? i); [intros E; apply (G1 j); unfold full; congruence|].
    destruct (k =? j); [discriminate|apply G1].
  - intros n k ch. cbn [rebind put owners]. rewrite !nth_error_map. destruct (nth_error (owners w) n) as [[[l|] c]|] eqn:EO; cbn [option_map fst snd]; try discriminate.
    destruct (G2 n l c EO) as (x & Hx & Hc). unfold full in *. cbn [rebind put slots].
    destruct (Nat.eqb_spec l i) as [->|N1]; cbn [fst snd]; [discriminate|]. destruct (Nat.eqb_spec l j) as [->|N2]; intros E; injection E as <- <-; rewrite UO.
    + rewrite Nat.eqb_refl. exists x. split; auto. congruence.
    + destruct (Nat.eqb_spec l i); [congruence|]. destruct (Nat.eqb_spec l j); [congruence|]. eauto.
Qed.
Lemma good_move_new w j s : good w -> nth_error (slots w) j = Some s -> s <> Gone ->
  good (rebind (World (upd (slots w) j Hollow ++ [s]) (views w) (owners w)) j (Some (length (slots w)))).
Proof.
  intros [G1 G2] ES NG. pose proof (nth_some_lt _ _ _ ES) as Lj.
  assert (UO : forall k, nth_error (upd (slots w) j Hollow ++ [s]) k = if k =? length (slots w) then Some s else if k =? j then Some Hollow else nth_error (slots w) k).
  { intros k. rewrite app_nth, upd_nth, upd_length. destruct (Nat.ltb_spec k (length (slots w))), (Nat.ltb_spec j (length (slots w))), (Nat.eqb_spec k (length (slots w))), (Nat.eqb_spec k j); auto; try lia.
    symmetry. apply nth_error_None. lia. }
  constructor.
  - intros k x. unfold full. cbn [rebind put slots]. rewrite UO. destruct (k =? length (slots w)); [intros E; apply (G1 j); unfold full; congruence|].
    destruct (k =? j); [discriminate|apply G1].
  - intros n k ch. cbn [rebind put owners]. rewrite !nth_error_map. destruct (nth_error (owners w) n) as [[[l|] c]|] eqn:EO; cbn [option_map fst snd]; try discriminate.
    destruct (G2 n l c EO) as (x & Hx & Hc). unfold full in *. cbn [rebind put slots].
    destruct (Nat.eqb_spec l j) as [->|N2]; intros E; injection E as <- <-; rewrite UO.
    + rewrite Nat.eqb_refl. exists x. split; auto. congruence.
    + pose proof (nth_some_lt _ _ _ Hx). destruct (Nat.eqb_spec l (length (slots w))); [lia|]. destruct (Nat.eqb_spec l j); [congruence|]. eauto.
Qed.

Lemma whole_len (b : buffer T) ch : whole b -> In ch (bdec b) -> length ch = decomposition_size (bpar b).
Proof. intros (HA & _ & H) Hin. rewrite dsize_bands by auto. destruct (H ch Hin) as [[]|[]]; auto. Qed.

Lemma new_whole p : params_rep p -> (0 <= wtype p <= 10)%Z -> Forall (fun n => (n < 2 ^ 63)%Z) (shape p) ->
  (exists b : buffer T, new_buffer p = Ok b /\ whole b /\ bpar b = p /\ legal p /\ Forall (fun c => length c = decomposition_size p) (bdec b) /\ Z.of_nat (length (bdec b)) = signum p) \/
  @new_buffer T p = Throw /\ ~ legal p.
Proof.
  intros Hr Ht Hs. destruct (legal_dec p) as [HL|HL]; [left|right].
  - assert (HA : accepted p) by (repeat split; auto; try apply Hr; try apply HL; lia).
    eexists. split; [apply new_buffer_legal; auto; lia|]. pose proof (new_buffer_legal (T:=T) p Hr ltac:(lia) HL) as E.
    destruct (binv_new p _ HA E) as (B1 & B2 & B3). cbn [bpar] in *. split; [split; auto|]. split; auto. split; auto. split; [|exact B2].
    cbn [bdec]. apply Forall_forall. intros c Hc. apply repeat_spec in Hc. subst c. apply repeat_length.
  - split; auto. apply new_buffer_illegal; auto; lia.
Qed.

Lemma proper_step w o : good w -> proper w o ->
  exists w' r, sstep w o = Ok (w', r) /\ good w' /\ ((r = Did true \/ exists b, r = Saw b /\ whole b) \/ r = Raised /\ may_raise o).
Proof.
  intros G P. assert (CF : forall i b, full w i b -> content w i = Ok b) by (intros i b HF; unfold content, rd; rewrite HF; reflexivity).
  assert (AL : forall i s, nth_error (slots w) i = Some s -> s <> Gone -> alive w i = Ok tt) by (intros i s HS NG; unfold alive, rd; rewrite HS; destruct s; [congruence|auto|auto]).
  destruct o as [mem p|mem p d|mem i|i|mem i j|i j|i|i data den|i|i v|n data den|mem n|i ch|n sub]; cbn [sstep proper may_raise] in *.
  - destruct P as (Hr & Ht & Hs). destruct (new_whole p Hr Ht Hs) as [(b & E & HW & _)|[E NL]]; rewrite E.
    + destruct (good_create w mem (Ok b) G) as (w' & o & E' & G' & D); [intros x Q; injection Q as <-; auto|discriminate|]. exists w', o. split; auto. split; auto.
      destruct D as [->|(-> & [->|Q])]; [auto|auto|discriminate].
    + destruct (good_create w mem Throw G) as (w' & o & E' & G' & D); [discriminate|discriminate|]. exists w', o. split; auto. split; auto.
      destruct D as [->|(-> & _)]; auto.
  - destruct P as (Hr & Ht & Hs & Hd). unfold new_buffer_with.
    destruct (new_whole p Hr Ht Hs) as [(b & E & HW & EP & HL & HF & HN)|[E NL]]; rewrite E; cbn [bind].
    + rewrite EP. destruct (Z.eqb_spec (signum p) (Z.of_nat (length d))) as [EL|NL]; cbn [negb].
      2:{ destruct (good_create w mem Throw G) as (w' & o & E' & G' & D); [discriminate|discriminate|]. exists w', o. split; auto. split; auto.
          destruct D as [->|(-> & _)]; [auto|]. right. split; [auto|right; right; lia]. }
      assert (HA : accepted p) by (repeat split; auto; try apply Hr; try apply HL; lia).
      match goal with |- context [forallb ?f ?l] => assert (FB : forallb f l = true) end.
      { apply forallb_forall. intros [x y] Hin. pose proof (in_combine_l _ _ _ _ Hin) as Hx. pose proof (in_combine_r _ _ _ _ Hin) as Hy. cbn [fst snd].
        rewrite Forall_forall in HF. rewrite (HF x Hx). apply Nat.eqb_eq. rewrite dsize_bands by auto. destruct (Hd y Hy) as [[]|[]]; auto. }
      rewrite FB. cbn [negb].
      destruct (good_create w mem (Ok (Buffer p d)) G) as (w' & o & E' & G' & D); [intros x Q; injection Q as <-; split; [|split]; auto|discriminate|]. exists w', o. split; auto. split; auto.
      destruct D as [->|(-> & [->|Q])]; [auto|auto|discriminate].
    + destruct (good_create w mem Throw G) as (w' & o & E' & G' & D); [discriminate|discriminate|]. exists w', o. split; auto. split; auto.
      destruct D as [->|(-> & _)]; auto.
  - destruct P as (b & HF). rewrite (CF i b HF). cbn [bind].
    destruct (good_create w mem (Ok b) G) as (w' & o & E' & G' & D); [intros x Q; injection Q as <-; eapply good_whole; eauto|discriminate|]. exists w', o. split; auto. split; auto.
    destruct D as [->|(-> & [->|Q])]; [auto|auto|discriminate].
  - destruct P as (s & HS & NG). unfold rd. rewrite HS. cbn [bind]. pose proof (good_move_new w i s G HS NG) as G'.
    destruct s; [congruence| |]; eexists; eexists; (split; [reflexivity|]); split; auto.
  - destruct P as ((s & HS & NG) & b & HF). rewrite (AL i s HS NG), (CF j b HF). cbn [bind]. destruct mem.
    + eexists. eexists. split; [reflexivity|]. split; [|auto]. apply good_drop; auto. intros x Q. injection Q as <-. eapply good_whole; eauto.
    + exists w, Raised. auto.
  - destruct P as ((s & HS & NG) & s' & HS' & NG'). rewrite (AL i s HS NG). unfold rd. rewrite HS'. cbn [bind].
    pose proof (nth_some_lt _ _ _ HS) as Li. destruct (Nat.eqb_spec i j) as [->|N].
    + exists w, (Did true). split; [destruct s'; congruence|auto].
    + pose proof (good_move w i j s' G N Li HS' NG') as G'. eexists. eexists. split; [destruct s'; [congruence|reflexivity|reflexivity]|]. auto.
  - destruct P as (s & HS & NG). rewrite (AL i s HS NG). cbn [bind]. eexists. eexists. split; [reflexivity|]. split; [|auto]. apply good_drop; auto. discriminate.
  - destruct P as (b & HF & Hs & HL & HD & HK). rewrite (CF i b HF). cbn [bind]. pose proof (good_whole w G i b HF) as HW. destruct HW as (HA & HN & HC).
    rewrite (decompose_ok (bpar b) HA b data den) by (auto; try (intros; apply whole_len; [split; [|split]; auto|auto]); intros _ s l; apply HK).
    cbn [bind fst snd]. eexists. eexists. split; [reflexivity|]. split; [|auto]. apply (good_put w i b); auto.
    + split; [exact HA|]. split; [cbn [bdec bpar]; rewrite map_length; lia|]. cbn [bdec bpar]. intros ch Hin. right. apply in_map_iff in Hin as (m & <- & _). apply dec_of_layout; auto.
    + cbn [bdec]. rewrite map_length. lia.
  - destruct P as (b & HF). rewrite (CF i b HF). cbn [bind]. exists w, (Saw b). split; auto. split; auto. left. right. exists b. split; auto. eapply good_whole; eauto.
  - destruct P as (s & HS & NG). rewrite (AL i s HS NG). cbn [bind]. eexists. eexists. split; [reflexivity|]. split; [|auto]. destruct G as [G1 G2]. constructor; auto.
  - destruct P as (i & v & b & HV & HF & HR & HM & Hc & HL & HD & HK). unfold rd. rewrite HV. cbn [bind fst snd]. rewrite (CF i b HF). cbn [bind].
    pose proof (good_whole w G i b HF) as HW. pose proof HW as (HA & HN & HC). pose proof HR as (V1 & V2 & V3 & V4).
    unfold view_decompose. rewrite check_range_in by auto. cbn [bind negb]. rewrite guard_true by auto. cbn [bind]. rewrite (odd_in v (bpar b)) by auto.
    rewrite decompose_impl_acc; auto; try lia; [|intros _ s l; apply HK|intros k sub _ Hk; apply whole_len; auto; eapply nth_error_In; eauto].
    cbn [bind fst snd]. eexists. eexists. split; [reflexivity|]. split; [|auto].
    match goal with |- good (put _ _ (Full (Buffer _ ?d))) => assert (HLd : length d = length (bdec b)) by (rewrite !app_length, map_length, !firstn_length, skipn_length; lia);
      assert (HI : forall ch, In ch d -> untouched (bpar b) ch \/ has_layout (bpar b) ch) end.
    { intros ch Hin. rewrite !in_app_iff in Hin. destruct Hin as [Hin|[Hin|Hin]].
      - apply HC. rewrite <- (firstn_skipn (Z.to_nat (vstart v)) (bdec b)). apply in_app_iff. auto.
      - right. apply in_map_iff in Hin as (m & <- & _). apply dec_of_layout; auto.
      - apply HC. match type of Hin with In _ (skipn ?k _) => rewrite <- (firstn_skipn k (bdec b)) end. apply in_app_iff. auto. }
    apply (good_put w i b); auto. split; [exact HA|]. cbn [bdec bpar]. split; [lia|exact HI].
  - destruct P as (i & v & b & HV & HF & HR). unfold rd. rewrite HV. cbn [bind fst snd]. rewrite (CF i b HF). cbn [bind].
    pose proof (good_whole w G i b HF) as HW. pose proof HW as (HA & HN & HC). pose proof HR as (V1 & V2 & V3 & V4).
    rewrite (view_cast_ok (bpar b) v b) by auto.
    match goal with |- context [create w mem (Ok ?x)] => assert (WX : whole x) end.
    { split; [apply accepted_signum; auto; lia|]. cbn [bdec bpar]. split; [rewrite firstn_length, skipn_length; cbn [signum with_signum]; lia|].
      intros ch Hin. apply (HC ch). rewrite <- (firstn_skipn (Z.to_nat (vstart v)) (bdec b)). apply in_app_iff. right.
      rewrite <- (firstn_skipn (Z.to_nat (vcount v)) (skipn (Z.to_nat (vstart v)) (bdec b))). apply in_app_iff. auto. }
    match goal with |- context [create w mem ?x] => destruct (good_create w mem x G) as (w' & o & E' & G' & D); [intros y Q; injection Q as <-; auto|discriminate|] end.
    exists w', o. split; auto. split; auto. destruct D as [->|(-> & [->|Q])]; [auto|auto|discriminate].
  - destruct P as (b & HF & Hc). rewrite (CF i b HF). cbn [bind]. pose proof (good_whole w G i b HF) as (HA & HN & HC).
    unfold rd. destruct (nth_error (bdec b) ch) as [x|] eqn:Ex; [|apply nth_error_None in Ex; lia]. cbn [bind].
    eexists. eexists. split; [reflexivity|]. split; [|auto]. destruct G as [G1 G2]. constructor; [exact G1|].
    intros n k c. cbn [owners]. rewrite app_nth. destruct (n <? length (owners w)); [apply G2|]. destruct (n =? length (owners w)); [|discriminate].
    intros E. injection E as <- <-. exists b. split; auto. lia.
  - destruct P as (i & ch & b & HO & HF & Hsub). unfold rd. rewrite HO. cbn [bind fst snd]. rewrite (CF i b HF). cbn [bind].
    destruct (good_refs w G n i ch HO) as (x & Hx & Hc). assert (x = b) by (unfold full in *; congruence). subst x.
    rewrite wr_lt by auto. cbn [bind]. eexists. eexists. split; [reflexivity|]. split; [|auto].
    pose proof (good_whole w G i b HF) as (HA & HN & HC). apply (good_put w i b); auto.
    + split; [exact HA|]. cbn [bdec bpar]. split; [rewrite upd_length; auto|]. intros c Hin. apply In_nth_error in Hin as (k & Hk). rewrite upd_nth in Hk.
      destruct (k =? ch); [destruct (ch <? length (bdec b)); [|discriminate]; injection Hk as <-; auto|]. apply HC. eapply nth_error_In; eauto.
    + cbn [bdec]. apply upd_length.
Qed.

Lemma proper_run l : forall h w, ok h w -> good w -> properly w l ->
  exists h' w' os, run h l = Ok (h', os) /\ ok h' w' /\ good w' /\ length os = length l /\
    forall n r o, nth_error os n = Some r -> nth_error l n = Some o -> (r = Did true \/ exists b, r = Saw b /\ whole b) \/ r = Raised /\ may_raise o.
Proof.
  induction l as [|o l IH]; intros h w K G P.
  - exists h, w, []. split; [reflexivity|]. split; [exact K|]. split; [exact G|]. split; [reflexivity|]. intros [|n]; discriminate.
  - destruct P as [P1 P2]. destruct (proper_step w o G P1) as (w1 & r & S1 & G1 & R1).
    destruct (step_heap h w w1 o r K S1) as (h1 & E1 & K1). destruct (IH h1 w1 K1 G1 (P2 w1 r S1)) as (h' & w' & os & E & K' & G' & L & F).
    exists h', w', (r :: os). cbn [run]. rewrite E1. cbn [bind fst snd]. rewrite E. cbn [bind fst snd]. split; auto. split; auto. split; auto. split; [cbn; lia|].
    intros [|n] x y Hx Hy; cbn [nth_error] in Hx, Hy; [|eauto]. assert (x = r) by congruence. assert (y = o) by congruence. subst. exact R1.
Qed.
End Object.
