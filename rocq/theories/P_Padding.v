(** * P_Padding *)
Require Import List Bool Arith ZArith Lia.
Require Import ZifyBool.
Require Import Verif.M_Base Verif.M_Padding Verif.S_Padding Verif.P_Base.
Import ListNotations.
Open Scope nat_scope.

Lemma sample_mk {T} r c (g : nat -> nat -> T) i j :
  i < r -> j < c -> sample (mk r c g) i j = Some (g i j).
Proof.
  intros Hi Hj. unfold sample. simpl rows; simpl cols.
  apply Nat.ltb_lt in Hi as E1; apply Nat.ltb_lt in Hj as E2. rewrite E1, E2. simpl andb.
  unfold mk; simpl elts. rewrite nth_error_map_seq by (apply idx_lt; auto).
  rewrite idx_div, idx_mod by auto. reflexivity.
Qed.

Definition pad_top (loc : location) (r h : nat) := if is_both loc then (r - h) / 2 else 0.

Lemma pad_top_offset loc r h : pad_top loc r h = offset loc r h.
Proof. destruct loc; reflexivity. Qed.

Lemma pad_top_le loc r h : h <= r -> pad_top loc r h + h <= r.
Proof.
  intros. unfold pad_top. destruct (is_both loc); [|lia].
  pose proof (Nat.div_le_upper_bound (r - h) 2 (r - h)). lia.
Qed.

Lemma mblit_if {T : Type} (b : bool) r c (g : nat -> nat -> T) r0 c0 h w src (s : nat -> nat -> T) :
  (b = true -> r0 + h <= r /\ c0 + w <= c) ->
  (b = false -> h = 0 \/ w = 0) ->
  (forall i j, i < h -> j < w -> src i j = Ok (s i j)) ->
  (if b then mblit (mk r c g) r0 c0 h w src else Ok (mk r c g)) =
  Ok (mk r c (fun i j => if (r0 <=? i) && (i <? r0 + h) && (c0 <=? j) && (j <? c0 + w)
                         then s (i - r0) (j - c0) else g i j)).
Proof.
  intros H1 H2 H3. destruct b.
  - apply mblit_mk; auto; apply H1; auto.
  - f_equal. apply mk_ext. intros i j Hi Hj.
    destruct ((r0 <=? i) && (i <? r0 + h) && (c0 <=? j) && (j <? c0 + w)) eqn:E; auto.
    exfalso. destruct (H2 eq_refl); lia.
Qed.

Ltac decide_le a b :=
  first [ let H := fresh in assert (H : (a <=? b) = true) by (apply Nat.leb_le; lia); rewrite H; clear H
        | let H := fresh in assert (H : (a <=? b) = false) by (apply Nat.leb_gt; lia); rewrite H; clear H ].
Ltac decide_lt a b :=
  first [ let H := fresh in assert (H : (a <? b) = true) by (apply Nat.ltb_lt; lia); rewrite H; clear H
        | let H := fresh in assert (H : (a <? b) = false) by (apply Nat.ltb_ge; lia); rewrite H; clear H ].

Section Pad.
Context {T : Type}.

Lemma extend_mk r c loc h w (s : nat -> nat -> T) :
  1 <= h -> 1 <= w -> h <= r -> w <= c ->
  extend r c loc (mk h w s) =
  Ok (mk r c (fun i j => s (Nat.min (i - pad_top loc r h) (h - 1))
                           (Nat.min (j - pad_top loc c w) (w - 1)))).
Proof.
  intros Hh Hw Hr Hc. unfold extend. simpl rows; simpl cols.
  rewrite guard_true by lia. cbn [bind].
  destruct (Nat.eqb_spec (r * c) 0); [nia|].
  fold (pad_top loc c w). fold (pad_top loc r h).
  pose proof (pad_top_le loc r h Hr) as Pr. pose proof (pad_top_le loc c w Hc) as Pc.
  set (top := pad_top loc r h) in *. set (left := pad_top loc c w) in *.
  set (right := if is_both loc then (c - w) / 2 + (c - w) mod 2 else c - w).
  set (bottom := if is_both loc then (r - h) / 2 + (r - h) mod 2 else r - h).
  assert (Er : left + w + right = c).
  { unfold left, right, pad_top. destruct (is_both loc); [|lia].
    pose proof (Nat.div_mod (c - w) 2). lia. }
  assert (Eb : top + h + bottom = r).
  { unfold top, bottom, pad_top. destruct (is_both loc); [|lia].
    pose proof (Nat.div_mod (r - h) 2). lia. }
  clearbody top left right bottom.
  rewrite mundef_mk.
  rewrite (mblit_mk r c _ top left h w _ (fun i j => Some (s i j))) by
    (try lia; intros; unfold some; rewrite mget_mk by lia; reflexivity).
  cbn [bind]. rewrite check_true by lia. cbn [bind].
  rewrite !mget_mk by lia. cbn [bind].
  rewrite (mblit_if (0 <? right) r c _ top (left + w) h right _ (fun i j => Some (s i (w - 1)))) by
    (try lia; intros; unfold some; rewrite mget_mk by lia; reflexivity).
  cbn [bind].
  rewrite (mblit_if (0 <? bottom) r c _ (top + h) left bottom w _ (fun i j => Some (s (h - 1) j))) by
    (try lia; intros; unfold some; rewrite mget_mk by lia; reflexivity).
  cbn [bind].
  rewrite (mblit_if (0 <? left) r c _ top 0 h left _ (fun i j => Some (s i 0))) by
    (try lia; intros; unfold some; rewrite mget_mk by lia; reflexivity).
  cbn [bind].
  rewrite (mblit_if (0 <? top) r c _ 0 left top w _ (fun i j => Some (s 0 j))) by
    (try lia; intros; unfold some; rewrite mget_mk by lia; reflexivity).
  cbn [bind].
  rewrite (mblit_if ((0 <? bottom) && (0 <? right)) r c _ (top + h) (left + w) bottom right _
     (fun i j => Some (s (h - 1) (w - 1)))) by (try lia; intros; reflexivity).
  cbn [bind].
  rewrite (mblit_if ((0 <? bottom) && (0 <? left)) r c _ (top + h) 0 bottom left _
     (fun i j => Some (s (h - 1) 0))) by (try lia; intros; reflexivity).
  cbn [bind].
  rewrite (mblit_if ((0 <? top) && (0 <? left)) r c _ 0 0 top left _
     (fun i j => Some (s 0 0))) by (try lia; intros; reflexivity).
  cbn [bind].
  rewrite (mblit_if ((0 <? top) && (0 <? right)) r c _ 0 (left + w) top right _
     (fun i j => Some (s 0 (w - 1)))) by (try lia; intros; reflexivity).
  cbn [bind].
  apply mfreeze_mk. intros i j Hi Hj.
  clear - Hh Hw Er Eb Hi Hj.
  destruct (lt_dec i top) as [I1|I1]; [|destruct (lt_dec i (top + h)) as [I2|I2]];
  (destruct (lt_dec j left) as [J1|J1]; [|destruct (lt_dec j (left + w)) as [J2|J2]]);
  repeat (match goal with
  | |- context[?a <=? ?b] => decide_le a b
  | |- context[?a <? ?b] => decide_lt a b
  end; cbn [andb]);
  do 2 f_equal; lia.
Qed.

Lemma crop_mk r c loc h w (s : nat -> nat -> T) :
  1 <= r -> 1 <= c -> r <= h -> c <= w ->
  crop r c loc (mk h w s) =
  Ok (mk r c (fun i j => s (pad_top loc h r + i) (pad_top loc w c + j))).
Proof.
  intros. unfold crop. simpl rows; simpl cols.
  rewrite guard_true by lia. cbn [bind].
  destruct (Nat.eqb_spec (r * c) 0); [nia|].
  fold (pad_top loc w c). fold (pad_top loc h r).
  pose proof (pad_top_le loc h r H1). pose proof (pad_top_le loc w c H2).
  apply msub_mk; lia.
Qed.

Lemma extend_zero_mk zero r c loc h w (s : nat -> nat -> T) :
  1 <= r -> 1 <= c -> h <= r -> w <= c ->
  extend_zero zero r c loc (mk h w s) =
  Ok (mk r c (fun i j =>
    if (pad_top loc r h <=? i) && (i <? pad_top loc r h + h) &&
       (pad_top loc c w <=? j) && (j <? pad_top loc c w + w)
    then s (i - pad_top loc r h) (j - pad_top loc c w) else zero)).
Proof.
  intros. unfold extend_zero. simpl rows; simpl cols.
  rewrite guard_true by lia. cbn [bind].
  destruct (Nat.eqb_spec (r * c) 0); [nia|].
  fold (pad_top loc c w). fold (pad_top loc r h).
  pose proof (pad_top_le loc r h H1). pose proof (pad_top_le loc c w H2).
  assert (E : Mat r c (repeat zero (r * c)) = mk r c (fun _ _ => zero)).
  { unfold mk. f_equal. generalize (r * c) as n0, 0. induction n0; intros; simpl; f_equal; auto. }
  rewrite E. apply mblit_mk; auto. intros. apply mget_mk; auto.
Qed.

(** ** Statements in terms of [sample] *)

Lemma mat_inhabited (m : mat T) : mwf m -> 1 <= rows m -> 1 <= cols m -> exists d : T, True.
Proof.
  intros W Hr Hc. unfold mwf in W. destruct (elts m) as [|x l]; [simpl in W; nia|].
  exists x; auto.
Qed.

Lemma extend_correct r c loc (src : mat T) :
  mwf src -> 1 <= rows src -> 1 <= cols src -> rows src <= r -> cols src <= c ->
  exists dst, extend r c loc src = Ok dst /\ replicates r c loc src dst.
Proof.
  intros W Hr Hc Hr' Hc'. destruct (mat_inhabited src) as [d _]; auto.
  rewrite (mat_eta d src W). set (h := rows src) in *. set (w := cols src) in *.
  rewrite extend_mk by auto. eexists; split; [reflexivity|].
  unfold replicates. split; [apply mk_wf|]. split; [reflexivity|]. split; [reflexivity|].
  intros i j Hi Hj. rewrite sample_mk by auto.
  change (rows (mk h w (mel d src))) with h. change (cols (mk h w (mel d src))) with w.
  rewrite sample_mk by (unfold nearest; lia).
  rewrite <- !pad_top_offset. do 2 f_equal; unfold nearest; lia.
Qed.

Lemma extend_zero_correct zero r c loc (src : mat T) :
  mwf src -> 1 <= rows src -> 1 <= cols src -> rows src <= r -> cols src <= c ->
  exists dst, extend_zero zero r c loc src = Ok dst /\ zero_padded zero r c loc src dst.
Proof.
  intros W Hr Hc Hr' Hc'. destruct (mat_inhabited src) as [d _]; auto.
  rewrite (mat_eta d src W). set (h := rows src) in *. set (w := cols src) in *.
  rewrite extend_zero_mk by lia. eexists; split; [reflexivity|].
  unfold zero_padded. split; [apply mk_wf|]. split; [reflexivity|]. split; [reflexivity|].
  intros i j Hi Hj. rewrite sample_mk by auto.
  change (rows (mk h w (mel d src))) with h. change (cols (mk h w (mel d src))) with w.
  rewrite <- !pad_top_offset.
  match goal with |- Some (if ?b1 then _ else _) = (if ?b2 then _ else _) =>
    replace b2 with b1 by lia; destruct b1 eqn:E end; auto.
  rewrite sample_mk by lia. do 2 f_equal; lia.
Qed.

(** the sample of the source is found again in the middle of both paddings *)
Lemma crop_extend r c loc (src : mat T) :
  mwf src -> 1 <= rows src -> 1 <= cols src -> rows src <= r -> cols src <= c ->
  (let* m := extend r c loc src in crop (rows src) (cols src) loc m) = Ok src.
Proof.
  intros W Hr Hc Hr' Hc'. destruct (mat_inhabited src) as [d _]; auto.
  rewrite (mat_eta d src W). set (h := rows src) in *. set (w := cols src) in *.
  change (rows (mk h w (mel d src))) with h. change (cols (mk h w (mel d src))) with w.
  rewrite extend_mk by auto. cbn [bind]. rewrite crop_mk by lia. f_equal.
  apply mk_ext. intros i j Hi Hj. f_equal; lia.
Qed.

Lemma crop_extend_zero zero r c loc (src : mat T) :
  mwf src -> 1 <= rows src -> 1 <= cols src -> rows src <= r -> cols src <= c ->
  (let* m := extend_zero zero r c loc src in crop (rows src) (cols src) loc m) = Ok src.
Proof.
  intros W Hr Hc Hr' Hc'. destruct (mat_inhabited src) as [d _]; auto.
  rewrite (mat_eta d src W). set (h := rows src) in *. set (w := cols src) in *.
  change (rows (mk h w (mel d src))) with h. change (cols (mk h w (mel d src))) with w.
  rewrite extend_zero_mk by lia. cbn [bind]. rewrite crop_mk by lia. f_equal.
  apply mk_ext. intros i j Hi Hj.
  match goal with |- (if ?b then _ else _) = _ => replace b with true by lia end.
  f_equal; lia.
Qed.

(** what happens outside the preconditions: asserts *)
Lemma extend_too_small r c loc (src : mat T) :
  r < rows src \/ c < cols src -> extend r c loc src = UB /\ forall z, extend_zero z r c loc src = UB.
Proof.
  intros H. unfold extend, extend_zero.
  replace (guard _) with (@UB unit) by (unfold guard; destruct ((cols src <=? c) && (rows src <=? r)) eqn:E; auto; lia).
  auto.
Qed.

End Pad.
