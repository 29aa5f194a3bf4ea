(** * P_Share4: sharing out the channels of a buffer *)
Require Import List Bool Arith ZArith Lia ZifyBool.
Require Import Verif.M_Base Verif.M_Params Verif.M_Buffer Verif.M_View.
Require Import Verif.S_Params Verif.S_Buffer Verif.P_Base Verif.P_Impl Verif.P_Api Verif.P_Api2.
Require Import Verif.P_Object.
Require Import Verif.M_Share Verif.S_Share Verif.P_Share Verif.P_Share2 Verif.P_Share3.
Import ListNotations.
Open Scope nat_scope.

Section Workers.
Context {T : Type} {A : Arith T}.

Definition share (i : nat) (den : denoiser T) (sf : Z) (off : nat) (d : list (mat T)) : list (call T) :=
  [CViewDecompose i (View (Z.of_nat off) (Z.of_nat (length d)) true) d den;
   CViewCompose i (View (Z.of_nat off) (Z.of_nat (length d)) true) sf].
Lemma skipn_more {X} a b (l : list X) : skipn a (skipn b l) = skipn (b + a) l.
Proof. revert l. induction b as [|b IH]; intros l; cbn; auto. destruct l; [now rewrite skipn_nil|auto]. Qed.
Lemma shares_nth i den sf off groups t cs : nth_error (shares i den sf off groups) t = Some cs ->
  exists d, nth_error groups t = Some d /\ cs = share i den sf (off + length (concat (firstn t groups))) d.
Proof.
  revert off t. induction groups as [|d rest IH]; intros off [|t] E; cbn in *; try discriminate.
  - injection E as <-. exists d. now rewrite Nat.add_0_r.
  - destruct (IH _ _ E) as (d' & E' & ->). exists d'. split; auto. f_equal. rewrite app_length. lia.
Qed.
Lemma concat_firstn_le {X} (l : list (list X)) t t' d : t < t' -> nth_error l t = Some d ->
  length (concat (firstn t l)) + length d <= length (concat (firstn t' l)).
Proof.
  revert t t'. induction l as [|a l IH]; intros [|t] [|t'] L E; cbn in *; try discriminate; try lia.
  - injection E as ->. rewrite app_length. lia.
  - rewrite !app_length. specialize (IH t t' ltac:(lia) E). lia.
Qed.
Lemma shares_apart i (den : denoiser T) sf off groups : apart (shares i den sf off groups).
Proof.
  intros t t' cs cs' N E E' c c' I I'.
  destruct (shares_nth _ _ _ _ _ _ _ E) as (d & Ed & ->). destruct (shares_nth _ _ _ _ _ _ _ E') as (d' & Ed' & ->).
  intros j ch W.
  assert (Hr : (Z.of_nat (off + length (concat (firstn t groups))) <= Z.of_nat ch < Z.of_nat (off + length (concat (firstn t groups))) + Z.of_nat (length d))%Z).
  { destruct I as [<-|[<-|[]]]; cbn in W; [apply W|easy]. }
  assert (No : ~ (Z.of_nat (off + length (concat (firstn t' groups))) <= Z.of_nat ch < Z.of_nat (off + length (concat (firstn t' groups))) + Z.of_nat (length d'))%Z).
  { destruct (Nat.lt_gt_cases t t') as (C & _). destruct (C N) as [L|L].
    - pose proof (concat_firstn_le groups t t' d L Ed). lia.
    - pose proof (concat_firstn_le groups t' t d' L Ed'). lia. }
  destruct I' as [<-|[<-|[]]]; cbn; split; try easy; intros (_ & H); auto.
Qed.

Section One.
Variables (p : params) (den : denoiser T) (sf : Z).
Hypothesis HA : accepted p.
Hypothesis Hn : (signum p < 2 ^ 31)%Z.
Hypothesis Hden : keeps_shape den.
Hypothesis Hsf : (0 <= sf <= steps p)%Z.

Definition out_of (d : list (mat T)) := map (com_of p (Z.to_nat sf)) (map (dec_of p den) d).
Lemma shares_do groups off (dec : ndecomposition T) : Forall (fun d => d <> []) groups -> Forall (Forall (shaped p)) groups ->
  Z.of_nat (length dec) = signum p -> (forall ch, In ch dec -> length ch = decomposition_size p) ->
  off + length (concat groups) <= length dec ->
  do_threads [Buffer p dec] (shares 0 den sf off groups) =
  Ok (map (fun d => [Did true; Composed true (Some (out_of d))]) groups,
      [Buffer p (firstn off dec ++ map (dec_of p den) (concat groups) ++ skipn (off + length (concat groups)) dec)]).
Proof.
  intros Hne. revert off dec. induction Hne as [|d rest Hd Hne IH]; intros off dec HS HL Hlen Hoff; cbn [shares do_threads map concat].
  - cbn [length]. rewrite Nat.add_0_r. cbn [map app]. now rewrite firstn_skipn.
  - inversion HS as [|? ? HSd HSr]; subst. cbn [concat] in Hoff. rewrite app_length in Hoff.
    assert (Ld : 1 <= length d) by (destruct d; [congruence|cbn; lia]).
    set (v := View (Z.of_nat off) (Z.of_nat (length d)) true).
    assert (HV : in_range v p) by (unfold in_range, v; cbn [vstart vcount]; lia).
    set (dec1 := firstn off dec ++ map (dec_of p den) d ++ skipn (off + length d) dec).
    assert (E1 : view_decompose v (Buffer p dec) d den = Ok (true, Buffer p dec1)).
    { unfold view_decompose. rewrite check_range_in by (cbn [bpar]; auto). cbn [bind negb vmutable v guard].
      rewrite (odd_in v p) by auto. cbn [bpar bdec vstart vcount v]. rewrite !Nat2Z.id.
      rewrite decompose_impl_acc; auto; try lia.
      - cbn [bind fst snd]. now rewrite firstn_all.
      - intros _ s l. apply Hden.
      - intros j sub _ Hj. apply Hlen. eapply nth_error_In; eauto. }
    assert (L1 : length dec1 = length dec).
    { unfold dec1. rewrite !app_length, map_length, firstn_length, skipn_length. lia. }
    assert (Sl : firstn (length d) (skipn off dec1) = map (dec_of p den) d).
    { unfold dec1. rewrite skipn_app, firstn_length. rewrite (skipn_all2 (firstn off dec)) by (rewrite firstn_length; lia).
      replace (off - Nat.min off (length dec)) with 0 by lia. cbn [skipn app].
      rewrite firstn_app, map_length, Nat.sub_diag. cbn [firstn]. rewrite app_nil_r.
      rewrite firstn_all2 by (rewrite map_length; lia). reflexivity. }
    assert (E2 : view_compose v (Buffer p dec1) sf = Ok (true, Some (out_of d))).
    { unfold view_compose. rewrite check_range_in by (cbn [bpar]; auto). cbn [bind negb].
      unfold scale_arg. destruct (Z.ltb_spec sf 0); [lia|]. cbn [bind vstart vcount v].
      destruct (Z.ltb_spec (Z.of_nat (length d)) 0); [lia|]. destruct (Z.ltb_spec (Z.of_nat off) 0); [lia|]. cbn [andb].
      cbn [bpar bdec]. rewrite !Nat2Z.id. rewrite compose_impl_acc; auto.
      - cbn [bind fst snd]. rewrite Sl. reflexivity.
      - rewrite <- geom_K by auto. lia.
      - lia.
      - intros j ch Hj Hch. apply layout_iff; auto. unfold dec1 in Hch.
        rewrite nth_error_app2 in Hch by (rewrite firstn_length; lia). rewrite firstn_length in Hch.
        replace (Nat.min off (length dec)) with off in Hch by lia.
        rewrite nth_error_app1 in Hch by (rewrite map_length; lia).
        apply nth_error_In in Hch. apply in_map_iff in Hch as (mm & <- & _). now apply dec_of_layout. }
    cbn [do_calls do_call rd nth_error bind fst snd]. fold v. rewrite E1. cbn [bind fst snd wr length Nat.ltb Nat.leb upd].
    cbn [do_call rd nth_error bind fst snd]. rewrite E2. cbn [bind fst snd].
    rewrite IH; auto.
    + cbn [bind fst snd]. do 4 f_equal.
      rewrite app_length, map_app. unfold dec1.
      rewrite (firstn_app (off + length d)), firstn_length. replace (Nat.min off (length dec)) with off by lia.
      rewrite (firstn_all2 (firstn off dec)) by (rewrite firstn_length; lia).
      replace (off + length d - off) with (length d) by lia.
      rewrite firstn_app, map_length, Nat.sub_diag. cbn [firstn]. rewrite app_nil_r.
      rewrite (firstn_all2 (map (dec_of p den) d)) by (rewrite map_length; lia).
      rewrite <- !app_assoc. do 3 f_equal.
      rewrite app_assoc, skipn_app.
      rewrite (skipn_all2 (firstn off dec ++ map (dec_of p den) d)) by (rewrite app_length, map_length, firstn_length; lia).
      cbn [app]. rewrite app_length, map_length, firstn_length. replace (Nat.min off (length dec)) with off by lia.
      replace (off + length d + length (concat rest) - (off + length d)) with (length (concat rest)) by lia.
      rewrite skipn_more. f_equal. lia.
    + lia.
    + intros ch I. unfold dec1 in I. apply in_app_or in I as [I|I].
      * apply Hlen. rewrite <- (firstn_skipn off dec). apply in_or_app. now left.
      * apply in_app_or in I as [I|I].
        -- apply in_map_iff in I as (mm & <- & _). apply (dec_of_layout p HA den mm Hden).
        -- apply Hlen. rewrite <- (firstn_skipn (off + length d) dec). apply in_or_app. now right.
    + lia.
Qed.
End One.

Theorem workers p (b : buffer T) groups den sf sched : accepted p -> (signum p < 2 ^ 31)%Z -> reachable p b ->
  keeps_shape den -> (0 <= sf <= steps p)%Z ->
  Forall (fun d => d <> []) groups -> Forall (Forall (shaped p)) groups ->
  (1 <= signum p)%Z -> Z.of_nat (length (concat groups)) = signum p ->
  let w := run sched (start [b] (shares 0 den sf 0 groups)) in
  all_finished w ->
  exists b' out outs,
    decompose b (concat groups) den = Ok (true, b') /\ compose b' sf = Ok (true, out) /\
    wmem w = [b'] /\
    map (@answers T) (threads w) = map (fun o => [Ok (Did true); Ok (Composed true (Some o))]) outs /\
    concat outs = out /\ map (@length _) outs = map (@length _) groups.
Proof.
  intros HA Hn HR Hden Hsf Hne HS H1 HL w Hw.
  destruct (reachable_weak p b HA HR) as (Ep & HLb & Hlen). destruct b as [p0 dec]. cbn [bpar bdec] in *. subst p0.
  pose proof (shares_do p den sf HA Hn Hden Hsf groups 0 dec Hne HS HLb Hlen ltac:(lia)) as E.
  destruct (serial _ _ _ _ sched (shares_apart 0 den sf 0 groups) E Hw) as (Em & Ea). fold w in Em, Ea.
  exists (Buffer p (map (dec_of p den) (concat groups))), (map (com_of p (Z.to_nat sf)) (map (dec_of p den) (concat groups))),
    (map (out_of p den sf) groups).
  split; [|split; [|split; [|split; [|split]]]].
  - apply decompose_ok; cbn [bpar bdec]; auto.
    + apply Forall_forall. intros x I. apply in_concat in I as (d & I1 & I2). rewrite Forall_forall in HS.
      specialize (HS d I1). rewrite Forall_forall in HS. auto.
    + intros _ s l. apply Hden.
  - apply compose_ok; cbn [bpar bdec]; auto.
    + rewrite map_length. lia.
    + intros ch I. apply in_map_iff in I as (mm & <- & _). now apply dec_of_layout.
  - rewrite Em. cbn [firstn app Nat.add]. do 2 f_equal. rewrite skipn_all2 by lia. apply app_nil_r.
  - rewrite Ea, !map_map. apply map_ext. reflexivity.
  - unfold out_of. clear. induction groups as [|d r IH]; cbn; auto. rewrite !map_app. now f_equal.
  - rewrite map_map. apply map_ext. intros d. unfold out_of. now rewrite !map_length.
Qed.
End Workers.
