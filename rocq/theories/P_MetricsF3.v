(** * P_MetricsF3: Distance in floats. *)
Require Import List Bool Arith ZArith Lia Reals Lra Permutation.
Require Import ZifyBool.
Require Import Flocq.Core.Core Flocq.Prop.Relative Flocq.Prop.Plus_error Flocq.IEEE754.BinarySingleNaN.
Require Import Verif.M_Base Verif.M_Params Verif.M_Buffer Verif.M_Float Verif.M_Binary32 Verif.M_Metrics Verif.M_MetricsF.
Require Import Verif.S_Buffer Verif.S_Metrics Verif.S_MetricsF Verif.P_Base Verif.P_Buffer Verif.P_Float Verif.P_SfFloat Verif.P_Binary32 Verif.P_Preview3.
Require Import Verif.P_Metrics Verif.P_MetricsF Verif.P_MetricsF2.
Import ListNotations.
Open Scope R_scope.

(** ** the loops *)
Lemma loop_fold {X A} (l : list X) (f : nat -> A -> res A) (g : A -> X -> A) : forall start acc,
  (forall i x acc, nth_error l i = Some x -> f (start + i)%nat acc = Ok (g acc x)) ->
  loop (length l) start f acc = Ok (fold_left g l acc).
Proof.
  induction l as [|x l IH]; intros start acc H; cbn [length loop fold_left]; auto.
  pose proof (H 0%nat x acc eq_refl) as E. rewrite Nat.add_0_r in E. rewrite E. cbn [bind].
  apply IH. intros i y a Hy. replace (S start + i)%nat with (start + S i)%nat by lia. apply H. auto.
Qed.

Definition diff32 (b a : mat f32) : mat f32 :=
  Mat (rows b) (cols b) (map (fun u => Bminus mode_NE (fst u) (snd u)) (combine (elts b) (elts a))).
Definition term32 sum (square : f64 -> f64) (u : mat f32 * mat f32) : f64 :=
  square (f64_of_f32 (mnorm32 sum (diff32 (snd u) (fst u)))).

Lemma combine_concat {X} (P : X -> X -> Prop) d1 d2 : Forall2 (Forall2 P) d1 d2 ->
  combine (concat d1) (concat d2) = concat (map (fun c => combine (fst c) (snd c)) (combine d1 d2)).
Proof.
  induction 1 as [|c1 c2 d1 d2 Hc Hd IH]; cbn [concat combine map fst snd]; auto.
  rewrite combine_app by (eapply Forall2_len; eauto). rewrite IH. reflexivity.
Qed.
Lemma fold_concat {A X} (g : A -> X -> A) ll : forall acc,
  fold_left g (concat ll) acc = fold_left (fun acc l => fold_left g l acc) ll acc.
Proof. induction ll; intros; cbn [concat fold_left]; auto. rewrite fold_left_app. auto. Qed.
Lemma fold_map {A X Y} (g : A -> Y -> A) (h : X -> Y) l : forall acc,
  fold_left g (map h l) acc = fold_left (fun acc x => g acc (h x)) l acc.
Proof. induction l; intros; cbn [map fold_left]; auto. Qed.
Lemma nth_combine {X Y} (l : list X) (l' : list Y) i u : nth_error (combine l l') i = Some u ->
  nth_error l i = Some (fst u) /\ nth_error l' i = Some (snd u).
Proof.
  revert l' i; induction l as [|x l IH]; intros [|y l'] [|i] H; simpl in *; try discriminate.
  - inversion H; auto.
  - auto.
Qed.
Lemma combine_len {X Y} (P : X -> Y -> Prop) l l' : Forall2 P l l' -> length (combine l l') = length l.
Proof. induction 1; simpl; auto. Qed.

Lemma calc32 sum square b1 b2 : same_sizes32 b1 b2 ->
  calc_distance32 sum square (bdec b1) (bdec b2) =
  Ok (fold_left (fun acc u => Bplus mode_NE acc (term32 sum square u)) (combine (subbands b1) (subbands b2)) (f64_of_int 0)).
Proof.
  unfold same_sizes32, subbands, calc_distance32. generalize (bdec b1), (bdec b2). intros d1 d2 H.
  rewrite (combine_concat _ _ _ H), fold_concat.
  rewrite <- (combine_len (X := decomposition f32) (Y := decomposition f32) _ d1 d2 H).
  set (g := fun acc u => Bplus mode_NE acc (term32 sum square u)).
  rewrite (loop_fold (combine d1 d2) _ (fun acc (c : decomposition f32 * decomposition f32) => fold_left g (combine (fst c) (snd c)) acc)).
  { f_equal. symmetry. apply (fold_map (A := f64)). }
  intros ch [c1 c2] acc Hc. apply nth_combine in Hc. cbn [fst snd Nat.add] in *. destruct Hc as [H1 H2].
  rewrite (rd_some _ _ _ H1). cbn [bind].
  assert (HC : Forall2 (fun m m' => mwf m /\ mwf m' /\ rows m = rows m' /\ cols m = cols m') c1 c2).
  { clear - H H1 H2. revert ch H1 H2. induction H; intros [|ch] H1 H2; simpl in *; try discriminate; [congruence|eauto]. }
  rewrite <- (combine_len _ _ _ HC). apply loop_fold. intros i [a b] acc' Hi. apply nth_combine in Hi. cbn [fst snd Nat.add] in *.
  destruct Hi as [I1 I2]. rewrite (rd_some _ _ _ I1). cbn [bind]. rewrite (rd_some _ _ _ H2). cbn [bind].
  rewrite (rd_some _ _ _ I2). cbn [bind].
  assert (HM : mwf a /\ mwf b /\ rows a = rows b /\ cols a = cols b).
  { clear - HC I1 I2. revert i I1 I2. induction HC; intros [|i] H1 H2; simpl in *; try discriminate; [congruence|eauto]. }
  unfold msubtract32. rewrite check_true by lia. reflexivity.
Qed.

(** ** symmetry *)
Definition sq32 (x : f32) : f32 := Bmult mode_NE x x.

Lemma B2R_opp_cases (x y : f32) : is_finite x = true -> is_finite y = true -> B2R x = - B2R y -> sq32 x = sq32 y.
Proof.
  intros Fx Fy E. unfold sq32.
  pose proof (Bmult_correct 24 128 _ _ mode_NE x x) as A. pose proof (Bmult_correct 24 128 _ _ mode_NE y y) as B.
  assert (EE : B2R x * B2R x = B2R y * B2R y) by (rewrite E; ring).
  rewrite EE in A. rewrite xorb_nilpotent in A, B. destruct (Rlt_bool _ _).
  - destruct A as (A1 & A2 & A3), B as (B1 & B2 & B3). rewrite Fx in A2. rewrite Fy in B2. cbn [andb] in A2, B2.
    assert (N : forall z : f32, is_finite z = true -> is_nan z = false) by (intros [?|?| |? ? ? ?]; simpl; congruence).
    apply B2R_Bsign_inj; auto.
    + rewrite A1, B1. reflexivity.
    + rewrite A3, B3 by (apply N; auto). reflexivity.
  - apply B2SF_inj. rewrite A, B. reflexivity.
Qed.

Lemma sq_minus_sym (x y : f32) : sq32 (Bminus mode_NE x y) = sq32 (Bminus mode_NE y x).
Proof.
  destruct (is_finite x) eqn:Fx; [destruct (is_finite y) eqn:Fy|].
  - pose proof (Bminus_correct 24 128 _ _ mode_NE x y Fx Fy) as A.
    pose proof (Bminus_correct 24 128 _ _ mode_NE y x Fy Fx) as B.
    assert (E : r32 (B2R x - B2R y) = - r32 (B2R y - B2R x)).
    { replace (B2R x - B2R y) with (- (B2R y - B2R x)) by ring. apply round_NE_opp. }
    fold (r32 (B2R x - B2R y)) in A. fold (r32 (B2R y - B2R x)) in B.
    rewrite E, Rabs_Ropp in A.
    destruct (Rlt_bool _ _) eqn:L.
    + destruct A as (A1 & A2 & _), B as (B1 & B2 & _). apply B2R_opp_cases; auto. rewrite A1, B1. reflexivity.
    + destruct A as [A _], B as [B _]. revert A B. generalize (Bminus mode_NE x y) (Bminus mode_NE y x). intros u v.
      destruct u; try discriminate; destruct v; try discriminate. intros _ _. unfold sq32. cbn [Bmult]. destruct s, s0; reflexivity.
  - destruct x as [s|s| |s m e H], y as [s'|s'| |s' m' e' H']; try discriminate; unfold sq32; try reflexivity;
      try (destruct s, s'; reflexivity).
  - destruct x as [s|s| |s m e H], y as [s'|s'| |s' m' e' H']; try discriminate; unfold sq32; try reflexivity;
      try (destruct s, s'; reflexivity).
Qed.

Lemma term_sym sum square a b : term32 sum square (a, b) = term32 sum square (b, a).
Proof.
  unfold term32, mnorm32, diff32. cbn [fst snd elts]. do 4 f_equal. rewrite !map_map.
  change (fun x : f32 => Bmult mode_NE x x) with sq32.
  generalize (elts a), (elts b). induction l as [|x l IH]; intros [|y l']; simpl; auto. f_equal; auto. apply sq_minus_sym.
Qed.

Lemma distance32_sym sum square b1 b2 : same_sizes32 b1 b2 -> comparable (bpar b1) (bpar b2) ->
  distance32 sum square b1 b2 = distance32 sum square b2 b1.
Proof.
  intros HS (C1 & C2 & C3). unfold distance32. rewrite C1, C2, C3, Z.eqb_refl, Z.sub_diag, list_Z_eqb_refl.
  cbn [andb guard bind]. change (to_size 0) with 0%Z. cbn [Z.eqb].
  rewrite (calc32 sum square b1 b2 HS), (calc32 sum square b2 b1).
  2: { unfold same_sizes32 in *. revert HS. generalize (bdec b1), (bdec b2). intros d1 d2. induction 1 as [|c1 c2 ? ? Hc]; constructor; auto.
       clear - Hc. induction Hc; constructor; auto. intuition auto. }
  cbn [bind]. do 3 f_equal. generalize (f64_of_int 0) (subbands b1) (subbands b2). clear.
  intros z l; revert z; induction l as [|x l IH]; intros z [|y l']; simpl; auto. rewrite term_sym. apply IH.
Qed.
