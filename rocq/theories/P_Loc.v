(** * P_Loc: which input samples a composed sample depends on, in any
    arithmetic. *)
Require Import List Bool Arith ZArith Lia.
Require Import ZifyBool.
Require Import Verif.M_Base Verif.M_Params Verif.M_Wavelet Verif.M_Buffer.
Require Import Verif.P_Base Verif.P_Wavelet Verif.P_Buffer Verif.P_Rec Verif.P_Round2 Verif.P_Round3.
Import ListNotations.
Open Scope nat_scope.

(** coefficient c of a level with N coefficients uses sample i of the 2 N below *)
Definition dep (t N c i : nat) : Prop := exists k, k < 2 * t /\ i = (2 * c + k) mod (2 * N).
(** the coefficients of level s that lead to sample i0, and the samples of
    level K - d these use *)
Fixpoint up (D : nat -> nat -> nat -> Prop) (n : nat -> nat) (i0 s : nat) (c : nat) : Prop :=
  match s with
  | O => c = i0
  | S s' => c < n (S s') /\ exists r, up D n i0 s' r /\ D s' c r
  end.
Fixpoint down (D : nat -> nat -> nat -> Prop) (n : nat -> nat) (i0 K d : nat) (r : nat) : Prop :=
  match d with
  | O => up D n i0 K r
  | S d' => exists c, down D n i0 K d' c /\ D (K - S d') c r
  end.
Lemma up_down D n i0 K d r : (forall s i, s < K -> i < n s -> exists c, c < n (S s) /\ D s c i) ->
  d <= K -> r < n (K - d) -> up D n i0 (K - d) r -> down D n i0 K d r.
Proof.
  intros HD. revert r. induction d as [|d IH]; intros r Hd Hr H.
  - rewrite Nat.sub_0_r in H. exact H.
  - destruct (HD (K - S d) r ltac:(lia) Hr) as (c & Hc & Hcr). exists c. split; auto.
    replace (S (K - S d)) with (K - d) in Hc by lia. apply IH; auto; [lia|].
    replace (K - d) with (S (K - S d)) by lia. cbn [up]. replace (S (K - S d)) with (K - d) by lia. split; eauto.
Qed.

(** row r of the joined matrix holds the coefficient *)
Definition pos (N r : nat) : nat := if r <? N then r else r - N.

Lemma in_combine_seq {B} (l : list B) a q b : In (q, b) (combine (seq a (length l)) l) -> a <= q /\ nth_error l (q - a) = Some b.
Proof.
  revert a. induction l as [|y l IH]; intros a H; [destruct H|]. cbn [length seq combine] in H. destruct H as [H|H].
  - inversion H; subst. rewrite Nat.sub_diag. auto.
  - apply IH in H as [H1 H2]. split; [lia|]. replace (q - a) with (S (q - S a)) by lia. exact H2.
Qed.

Section Any.
Context {T : Type} {AT : Arith T}.

Lemma dm_entry t N r e : (1 <= t <= 10)%Z -> 0 < N -> r < 2 * N -> In e (srow_at (dm t (2 * N)) r) ->
  dep (Z.to_nat t) N (pos N r) (fst e).
Proof.
  intros Ht HN Hr. unfold dm. 
  assert (E2 : 2 * N / 2 = N) by (rewrite Nat.mul_comm, Nat.div_mul; lia).
  assert (LL : length (@lo_r T AT t) = 2 * Z.to_nat t) by (apply lo_r_length; auto).
  assert (LH : length (@hi_r T AT t) = 2 * Z.to_nat t) by (rewrite hi_r_length; auto).
  assert (ER : srow_at (dmat_pure (2 * N) (@lo_r T AT t) (hi_r t)) r =
     if r <? N then drow (2 * N) (lo_r t) r else drow (2 * N) (hi_r t) (r - N)).
  { unfold srow_at, dmat_pure; cbn [srow]. rewrite E2. destruct (Nat.ltb_spec r N).
    - rewrite app_nth1 by (rewrite map_length, seq_length; auto). apply nth_map_seq; auto.
    - rewrite app_nth2 by (rewrite map_length, seq_length; auto). rewrite map_length, seq_length.
      rewrite app_nth1 by (rewrite map_length, seq_length; lia). apply nth_map_seq; lia. }
  rewrite ER. unfold pos. intros He.
  assert (HD : forall f c, length f = 2 * Z.to_nat t -> In e (@drow T AT (2 * N) f c) -> dep (Z.to_nat t) N c (fst e)).
  { intros f c Lf H. unfold drow in H. apply in_map_iff in H as (m & <- & Hm). cbn [fst]. rewrite Lf in *.
    exists (dpos (2 * N) (2 * Z.to_nat t) c m). split; [|reflexivity]. unfold dpos. apply Nat.mod_upper_bound. lia. }
  destruct (r <? N); eauto.
Qed.
Lemma dmT_entry t N i e : (1 <= t <= 10)%Z -> 0 < N -> i < 2 * N -> In e (srow_at (dmT t (2 * N)) i) ->
  fst e < 2 * N /\ dep (Z.to_nat t) N (pos N (fst e)) i.
Proof.
  intros Ht HN Hi. unfold dmT, srow_at. unfold stranspose; cbn [srow].
  pose proof (@dm_entry t N) as HE.
  assert (W : swf (@dm T AT t (2 * N))) by (apply dmat_pure_swf; lia).
  destruct W as [WL _].
  rewrite nth_map_seq by (unfold dm, dmat_pure; cbn [scols]; auto). intros H.
  apply in_flat_map in H as ((q & row) & Hq & He). cbn [fst snd] in He.
  apply in_map_iff in He as (e0 & <- & He0). apply filter_In in He0 as [He0 Ef]. cbn [fst].
  apply in_combine_seq in Hq as [_ Hq]. rewrite Nat.sub_0_r in Hq.
  assert (Hlt : q < 2 * N).
  { assert (L : q < length (srow (@dm T AT t (2 * N)))) by (apply nth_error_Some; congruence). rewrite WL in L. exact L. }
  split; auto. apply Nat.eqb_eq in Ef. rewrite <- Ef. apply HE; auto. unfold srow_at.
  rewrite (nth_error_nth _ _ [] Hq). auto.
Qed.

Lemma afilt_loc f N t c x y : length f = 2 * t -> (forall i, dep t N c i -> x i = y i) ->
  @afilt T AT f (2 * N) x c = afilt f (2 * N) y c.
Proof.
  intros L H. unfold afilt. apply sumT_ext. intros j Hj. rewrite H; auto. exists j. split; [lia|reflexivity].
Qed.
Lemma sfilt_loc lr hr N t i l h l' h' : 0 < N -> 2 * t <= 2 * N -> length lr = 2 * t -> i < 2 * N ->
  (forall c, c < N -> dep t N c i -> l c = l' c /\ h c = h' c) ->
  @sfilt T AT lr hr N l h i = sfilt lr hr N l' h' i.
Proof.
  intros HN Ht L Hi H. unfold sfilt. rewrite L. replace (2 * t / 2) with t by (rewrite Nat.mul_comm, Nat.div_mul; lia).
  replace ((2 * t - 2) / 2) with (t - 1) by (replace (2 * t - 2) with ((t - 1) * 2) by lia; rewrite Nat.div_mul; lia).
  apply fold_left_ext_in. intros acc jj Hj. apply in_seq in Hj. cbv zeta.
  set (c := (N - (t - 1) + i / 2 + jj) mod N).
  assert (Hc : c < N) by (apply Nat.mod_upper_bound; lia).
  destruct (H c Hc) as [-> ->]; [|reflexivity].
  exists (i mod 2 + 2 * (t - 1 - jj)). split; [pose proof (Nat.mod_upper_bound i 2); lia|].
  pose proof (Nat.div_mod i 2 ltac:(lia)) as Di.
  pose proof (Nat.div_mod (N - (t - 1) + i / 2 + jj) N ltac:(lia)) as Dm.
  fold c in Dm. set (q := (N - (t - 1) + i / 2 + jj) / N) in *.
  rewrite <- (Nat.mod_add _ q) by lia.
  replace (2 * c + (i mod 2 + 2 * (t - 1 - jj)) + q * (2 * N)) with (i + 1 * (2 * N)) by nia.
  rewrite Nat.mod_add by lia. rewrite Nat.mod_small; auto.
Qed.

Section Geom.
Variable g : geom.
Hypothesis G : gwf g.
Notation t := (Z.to_nat (gt g)).
Notation K := (gK g).
Definition rdep (s c i : nat) : Prop := dep t (hs g (S s)) c i.
Definition cdep (s c j : nat) : Prop := gdim g = 1 \/ dep t (ws g (S s)) c j.
Definition rpos (s : nat) : nat -> nat := pos (hs g (S s)).
Definition cpos (s : nat) : nat -> nat := pos (ws g (S s)).

Lemma ANA_loc s y y' i j : s < K -> i < hs g s -> j < ws g s ->
  (forall i' j', i' < hs g s -> j' < ws g s -> rdep s (rpos s i) i' -> cdep s (cpos s j) j' -> y i' j' = y' i' j') ->
  @ANA T AT g s y i j = ANA g s y' i j.
Proof.
  intros Hs Hi Hj H. pose proof (hs_step g s G Hs) as (Hh & Hh2). pose proof (gt_range g s G Hs) as Ht.
  unfold ANA. destruct (gdim_cases g G) as [E|E]; rewrite E; cbn [Nat.eqb].
  - assert (W1 : 0 < ws g s) by (rewrite (ws_1 g s E); lia).
    assert (Q : forall c f, c = rpos s i -> length f = 2 * t ->
       @afilt T AT f (hs g s) (fun i' => y i' 0) c = afilt f (hs g s) (fun i' => y' i' 0) c).
    { intros c f -> Lf. rewrite Hh. apply (afilt_loc f _ t); auto. intros i' Hi'. apply H; auto; [|left; auto].
      destruct Hi' as (k & _ & ->). rewrite Hh. apply Nat.mod_upper_bound. lia. }
    assert (LL : length (@lo_r T AT (gt g)) = 2 * t) by (apply lo_r_length; auto).
    unfold rpos, pos in Q. destruct (i <? hs g (S s)); apply Q; auto. rewrite hi_r_length. auto.
  - pose proof (ws_step g s G E Hs) as (Hw & Hw2). unfold sep.
    apply rowdot_ext. intros e He. apply rowdot_ext. intros e' He'.
    assert (fst e < hs g s).
    { replace (hs g s) with (scols (@dm T AT (gt g) (hs g s))) by reflexivity. eapply srow_at_cols; eauto. apply dmat_pure_swf. lia. }
    assert (fst e' < ws g s).
    { replace (ws g s) with (scols (@dm T AT (gt g) (ws g s))) by reflexivity. eapply srow_at_cols; eauto. apply dmat_pure_swf. lia. }
    rewrite Hh in He. rewrite Hw in He'.
    apply H; auto; [|right]; apply dm_entry; auto; lia.
Qed.
Lemma SYN_loc s z z' i j : s < K -> i < hs g s -> j < ws g s ->
  (forall e f, e < hs g s -> f < ws g s -> rdep s (rpos s e) i -> cdep s (cpos s f) j -> z e f = z' e f) ->
  @SYN T AT g s z i j = SYN g s z' i j.
Proof.
  intros Hs Hi Hj H. pose proof (hs_step g s G Hs) as (Hh & Hh2). pose proof (gt_range g s G Hs) as Ht.
  unfold SYN. destruct (gdim_cases g G) as [E|E]; rewrite E; cbn [Nat.eqb].
  - assert (W1 : 0 < ws g s) by (rewrite (ws_1 g s E); lia).
    apply (sfilt_loc _ _ _ t); try lia.
    + rewrite rev_length. apply lo_r_length; auto.
    + intros c Hc HD. split; apply H; try lia; try (left; auto); unfold rdep, rpos, pos.
      * destruct (Nat.ltb_spec c (hs g (S s))); auto; lia.
      * destruct (Nat.ltb_spec (hs g (S s) + c) (hs g (S s))); [lia|]. replace (hs g (S s) + c - hs g (S s)) with c by lia. auto.
  - pose proof (ws_step g s G E Hs) as (Hw & Hw2). unfold sep.
    apply rowdot_ext. intros e He. apply rowdot_ext. intros e' He'.
    rewrite Hh in He. rewrite Hw in He'.
    apply dmT_entry in He as [He1 He2]; try lia. apply dmT_entry in He' as [He1' He2']; try lia.
    apply H; try lia; auto. right; auto.
Qed.

Lemma rdep_ex s i : s < K -> i < hs g s -> exists c, c < hs g (S s) /\ rdep s c i.
Proof.
  intros Hs Hi. pose proof (hs_step g s G Hs) as (Hh & Hh2). pose proof (gt_range g s G Hs) as Ht.
  pose proof (Nat.div_mod i 2 ltac:(lia)). pose proof (Nat.mod_upper_bound i 2 ltac:(lia)).
  exists (i / 2). split; [lia|]. exists (i mod 2). split; [lia|]. rewrite Nat.mod_small; lia.
Qed.
Lemma cdep_ex s j : s < K -> j < ws g s -> exists c, c < ws g (S s) /\ cdep s c j.
Proof.
  intros Hs Hj. pose proof (gt_range g s G Hs) as Ht. destruct (gdim_cases g G) as [E|E].
  - exists 0. split; [rewrite (ws_1 g _ E); lia|left; auto].
  - pose proof (ws_step g s G E Hs) as (Hw & Hw2).
    pose proof (Nat.div_mod j 2 ltac:(lia)). pose proof (Nat.mod_upper_bound j 2 ltac:(lia)).
    exists (j / 2). split; [lia|]. right. exists (j mod 2). split; [lia|]. rewrite Nat.mod_small; lia.
Qed.
Lemma pos_lt s N e : s = 2 * N -> e < s -> pos N e < N.
Proof. unfold pos. destruct (Nat.ltb_spec e N); lia. Qed.
Lemma rpos_lt s e : s < K -> e < hs g s -> rpos s e < hs g (S s).
Proof. intros Hs He. pose proof (hs_step g s G Hs) as (Hh & _). apply (pos_lt (hs g s)); auto. Qed.
Lemma cpos_lt s f : s < K -> f < ws g s -> cpos s f < ws g (S s).
Proof.
  intros Hs Hf. destruct (gdim_cases g G) as [E|E].
  - unfold cpos, pos. rewrite !(ws_1 g _ E) in *. destruct f; [|lia]. cbn. lia.
  - pose proof (ws_step g s G E Hs) as (Hw & _). apply (pos_lt (ws g s)); auto.
Qed.

Variables i0 j0 : nat.
Notation UR := (up rdep (hs g) i0).
Notation UC := (up cdep (ws g) j0).
Notation DR := (down rdep (hs g) i0 K).
Notation DC := (down cdep (ws g) j0 K).

Section Two.
Variables x x' : nat -> nat -> T.
Hypothesis SAME : forall i j, i < hs g 0 -> j < ws g 0 -> DR K i -> DC K j -> x i j = x' i j.

Lemma ap_loc s : s <= K -> forall i j, i < hs g s -> j < ws g s -> DR (K - s) i -> DC (K - s) j -> ap g x s i j = ap g x' s i j.
Proof.
  induction s as [|s IH]; intros Hs i j Hi Hj Di Dj.
  - rewrite Nat.sub_0_r in *. apply SAME; auto.
  - assert (Hs' : s < K) by lia. pose proof (hs_step g s G Hs') as (Hh & _).
    assert (Hjs : j < ws g s).
    { destruct (gdim_cases g G) as [E|E]; [rewrite !(ws_1 g _ E) in *; auto|]. pose proof (ws_step g s G E Hs') as (Hw & _). lia. }
    rewrite !(ana_low g) by auto. apply ANA_loc; auto; [lia|]. intros i' j' Hi' Hj' Ri Rj.
    assert (Ei : rpos s i = i) by (unfold rpos, pos; destruct (Nat.ltb_spec i (hs g (S s))); lia).
    assert (Ej : cpos s j = j) by (unfold cpos, pos; destruct (Nat.ltb_spec j (ws g (S s))); lia).
    rewrite Ei in Ri. rewrite Ej in Rj.
    apply IH; auto; [lia| |]; replace (K - s) with (S (K - S s)) by lia; cbn [down];
      replace (K - S (K - S s)) with s by lia; eauto.
Qed.
Lemma ANA_loc2 s i j : s < K -> i < hs g s -> j < ws g s -> UR (S s) (rpos s i) -> UC (S s) (cpos s j) ->
  ANA g s (ap g x s) i j = ANA g s (ap g x' s) i j.
Proof.
  intros Hs Hi Hj Ui Uj. apply ANA_loc; auto. intros i' j' Hi' Hj' Ri Rj. apply ap_loc; auto; try lia.
  - replace (K - s) with (S (K - S s)) by lia. cbn [down]. exists (rpos s i). split.
    + apply up_down; [apply rdep_ex|lia| |]; replace (K - (K - S s)) with (S s) by lia; auto. apply rpos_lt; auto.
    + replace (K - S (K - S s)) with s by lia. auto.
  - replace (K - s) with (S (K - S s)) by lia. cbn [down]. exists (cpos s j). split.
    + apply up_down; [apply cdep_ex|lia| |]; replace (K - (K - S s)) with (S s) by lia; auto. apply cpos_lt; auto.
    + replace (K - S (K - S s)) with s by lia. auto.
Qed.
End Two.

(** two sets of subbands that agree on the coefficients above the sample *)
Section Bands.
Variables ch ch' : decomposition T.
Hypothesis SAME : forall s b i j, s < K -> b < gspw g -> i < hs g (S s) -> j < ws g (S s) -> UR (S s) i -> UC (S s) j ->
  chf ch (s * gspw g + b) i j = chf ch' (s * gspw g + b) i j.
Hypothesis SAMEA : forall i j, i < hs g K -> j < ws g K -> UR K i -> UC K j -> chf ch (K * gspw g) i j = chf ch' (K * gspw g) i j.

Lemma rc_loc it : it <= K -> forall i j, i < hs g (K - it) -> j < ws g (K - it) -> UR (K - it) i -> UC (K - it) j ->
  rc g ch it i j = rc g ch' it i j.
Proof.
  induction it as [|it IH]; intros Hit i j Hi Hj Ui Uj.
  - rewrite Nat.sub_0_r in *. cbn [rc]. auto.
  - cbn [rc]. set (s := K - S it) in *. assert (Hs : s < K) by (unfold s; lia).
    replace (K - it) with (S s) in IH by (unfold s; lia).
    rewrite !syn_join by auto. apply SYN_loc; auto. intros e f He Hf Re Rf.
    assert (Ue : UR (S s) (rpos s e)) by (cbn [up]; split; [apply rpos_lt; auto|eauto]).
    assert (Uf : UC (S s) (cpos s f)) by (cbn [up]; split; [apply cpos_lt; auto|eauto]).
    pose proof (rpos_lt s e Hs He) as Le. pose proof (cpos_lt s f Hs Hf) as Lf.
    unfold joined. unfold rpos, pos in Ue, Le. unfold cpos, pos in Uf, Lf.
    destruct (Nat.ltb_spec e (hs g (S s))), (Nat.ltb_spec f (ws g (S s))).
    + apply IH; auto. lia.
    + destruct (gdim_cases g G) as [E|E]; [rewrite !(ws_1 g _ E) in *; lia|]. apply SAME; auto. rewrite spw_2; auto.
    + apply SAME; auto. apply spw_pos.
    + destruct (gdim_cases g G) as [E|E]; [rewrite !(ws_1 g _ E) in *; lia|]. apply SAME; auto. rewrite spw_2; auto.
Qed.
End Bands.
End Geom.
End Any.
