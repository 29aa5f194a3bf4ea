(** * P_Gen: generations of stored buffers *)
Require Import List Bool Arith ZArith Lia.
Require Import Verif.M_Base Verif.M_Params Verif.M_Buffer Verif.M_Denoise Verif.M_Archive Verif.M_Serializer.
Require Import Verif.S_Params Verif.S_Buffer Verif.S_Serializer Verif.S_Gen.
Require Import Verif.P_Base Verif.P_Archive Verif.P_Serializer Verif.P_Blob.
Import ListNotations.
Open Scope Z_scope.
Implicit Types (cd : codec) (legacy : buffer word -> list Z -> res (option (buffer word))).

Lemma same_word_refl x : same_word x x.
Proof. left. reflexivity. Qed.
Lemma F2_refl {X} (R : X -> X -> Prop) l : (forall x, R x x) -> Forall2 R l l.
Proof. intros H. induction l; constructor; auto. Qed.
Lemma F2_trans {X} (R : X -> X -> Prop) : (forall x y z, R x y -> R y z -> R x z) ->
  forall l l' l'', Forall2 R l l' -> Forall2 R l' l'' -> Forall2 R l l''.
Proof.
  intros H l l' l'' H1. revert l''. induction H1; intros l'' H2; inversion H2; subst; constructor; eauto.
Qed.
Lemma F2_map {X Y} (R : Y -> Y -> Prop) (f g : X -> Y) l : (forall x, In x l -> R (f x) (g x)) -> Forall2 R (map f l) (map g l).
Proof. induction l as [|a l IH]; intros H; cbn [map]; constructor; [apply H; left; auto|apply IH; intros; apply H; right; auto]. Qed.
Lemma same_word_trans x y z : same_word x y -> same_word y z -> same_word x z.
Proof. intros [->|[H1 H2]] [->|[H3 H4]]; unfold same_word; auto. Qed.
Lemma same_mat_refl m : same_mat m m.
Proof. repeat split. apply F2_refl, same_word_refl. Qed.
Lemma same_mat_trans m1 m2 m3 : same_mat m1 m2 -> same_mat m2 m3 -> same_mat m1 m3.
Proof. intros (A1 & A2 & A3) (B1 & B2 & B3). repeat split; try congruence. eapply F2_trans; eauto. apply same_word_trans. Qed.
Lemma same_buffer_refl b : same_buffer b b.
Proof. split; auto. apply F2_refl. intros ch. apply F2_refl, same_mat_refl. Qed.
Lemma same_buffer_trans b1 b2 b3 : same_buffer b1 b2 -> same_buffer b2 b3 -> same_buffer b1 b3.
Proof. intros (A1 & A2) (B1 & B2). split; [congruence|]. eapply F2_trans; [|exact A2|exact B2]. intros x y z. apply F2_trans, same_mat_trans. Qed.
Lemma same_map (f g : word -> word) b : (forall x, same_word (f x) (g x)) -> same_buffer (map_buffer f b) (map_buffer g b).
Proof.
  intros H. split; [reflexivity|]. cbn [map_buffer bdec]. apply F2_map. intros ch _. apply F2_map. intros m _. repeat split. apply F2_map. intros x _. apply H.
Qed.
Lemma map_map_buffer (f g : word -> word) b : map_buffer f (map_buffer g b) = map_buffer (fun x => f (g x)) b.
Proof.
  unfold map_buffer. cbn [bpar bdec]. f_equal. rewrite map_map. apply map_ext. intros ch. rewrite map_map. apply map_ext. intros m. unfold map_mat. cbn [rows cols elts]. rewrite map_map. reflexivity.
Qed.
Lemma map_buffer_ext (f g : word -> word) b : (forall x, f x = g x) -> map_buffer f b = map_buffer g b.
Proof.
  intros H. unfold map_buffer. f_equal. apply map_ext. intros ch. apply map_ext. intros m. unfold map_mat. f_equal. apply map_ext. exact H.
Qed.

(** sizes are kept *)
Lemma map_in (f : word -> word) b ch m : In ch (bdec (map_buffer f b)) -> In m ch -> exists ch0 m0, In ch0 (bdec b) /\ In m0 ch0 /\ m = map_mat f m0.
Proof.
  cbn [map_buffer bdec]. intros H1 H2. apply in_map_iff in H1 as (ch0 & <- & H1). apply in_map_iff in H2 as (m0 & <- & H2). eauto.
Qed.
Lemma map_storable (f : word -> word) b : storable b -> storable (map_buffer f b).
Proof.
  intros (H1 & H2 & H3). split; [exact H1|]. cbn [map_buffer bdec bpar]. rewrite map_length. split; [exact H2|].
  intros ch Hin. apply in_map_iff in Hin as (ch0 & <- & Hin). destruct (H3 ch0 Hin) as [L F]. rewrite map_length. split; [exact L|].
  apply Forall_forall. intros m Hm. apply in_map_iff in Hm as (m0 & <- & Hm). rewrite Forall_forall in F. destruct (F m0 Hm) as (W & R).
  split; [|exact R]. unfold mwf, map_mat in *. cbn [rows cols elts]. rewrite map_length. exact W.
Qed.
Lemma map_indexable (f : word -> word) b : indexable b -> indexable (map_buffer f b).
Proof. intros H ch m H1 H2. destruct (map_in f b ch m H1 H2) as (ch0 & m0 & I1 & I2 & ->). exact (H ch0 m0 I1 I2). Qed.
Lemma map_sides (f : word -> word) b : int_sides b -> int_sides (map_buffer f b).
Proof. intros H ch m H1 H2. destruct (map_in f b ch m H1 H2) as (ch0 & m0 & I1 & I2 & ->). exact (H ch0 m0 I1 I2). Qed.
Lemma map_nonempty (f : word -> word) b : no_empty_subband b -> no_empty_subband (map_buffer f b).
Proof. intros H ch m H1 H2. destruct (map_in f b ch m H1 H2) as (ch0 & m0 & I1 & I2 & ->). exact (H ch0 m0 I1 I2). Qed.

Lemma zero_zero : is_zero word_zero = true.
Proof. reflexivity. Qed.

Section Gen.
Variables (cd : codec) (legacy : buffer word -> list Z -> res (option (buffer word))) (q : Z -> word -> word).
Hypothesis HQ : nested q.
Hypothesis HC : forall s, 1 <= s <= 31 -> codec_faithful cd (33 - s) (q s) /\ codec_total cd (33 - s).

Definition storage (b : buffer word) : Prop := storable b /\ indexable b /\ int_sides b /\ no_empty_subband b.
Lemma map_storage (f : word -> word) b : storage b -> storage (map_buffer f b).
Proof. intros (H1 & H2 & H3 & H4). split; [apply map_storable; auto|]. split; [apply map_indexable; auto|]. split; [apply map_sides; auto|apply map_nonempty; auto]. Qed.

(** one generation *)
Definition cleaned (s : Z) (x : word) : word := if s =? 0 then x else clean (q s) x.
Lemma one b sf : storage b -> 0 <= sf ->
  exists blob, serialize cd b sf = Ok (Some blob) /\ parse cd legacy blob = Ok (Some (map_buffer (cleaned (Z.min 31 sf)) b)).
Proof.
  intros (H1 & H2 & H3 & H4) Hs. destruct (Z.eq_dec sf 0) as [->|N].
  - destruct (uncompressed cd legacy b H1) as (blob & E1 & E2). exists blob. split; [exact E1|]. specialize (E2 []). rewrite app_nil_r in E2. rewrite E2. do 2 f_equal.
    unfold cleaned, map_buffer. cbn [Z.min Z.compare Z.eqb]. destruct b as [p d]. cbn [bpar bdec]. f_equal. symmetry. rewrite <- (map_id d) at 2. apply map_ext. intros ch. rewrite <- (map_id ch) at 2. apply map_ext.
    intros [r c e]. unfold map_mat. cbn [rows cols elts]. f_equal. apply map_id.
  - destruct (HC (Z.min 31 sf) ltac:(lia)) as [F1 F2]. destruct (compressed cd legacy b sf (q (Z.min 31 sf)) H1 ltac:(lia) H2 H4 F1) as [R E].
    destruct (E H3 F2) as (blob & E1). exists blob. split; [exact E1|]. destruct (R blob E1) as [_ R2]. specialize (R2 []). rewrite app_nil_r in R2. rewrite R2. do 2 f_equal.
    unfold cleaned. destruct (Z.eqb_spec (Z.min 31 sf) 0); [lia|]. reflexivity.
Qed.
Lemma cleaned_same s x : 0 <= s <= 31 -> same_word (cleaned s x) (q s x).
Proof.
  intros Hs. unfold cleaned, clean. destruct (Z.eqb_spec s 0) as [->|N].
  - rewrite (proj1 HQ). apply same_word_refl.
  - destruct (is_zero x) eqn:E; [|left; reflexivity]. right. split; [exact zero_zero|]. apply HQ; auto.
Qed.
Lemma q_same s x y : 0 <= s <= 31 -> same_word x y -> same_word (q s x) (q s y).
Proof. intros Hs [->|[H1 H2]]; [left; auto|]. right. split; apply HQ; auto. Qed.

(** what a word has become after the levels *)
Fixpoint passed (levels : list Z) (x : word) : word :=
  match levels with [] => x | sf :: t => passed t (cleaned (Z.min 31 sf) x) end.
Lemma run_passed levels : forall b, storage b -> Forall (fun sf => 0 <= sf) levels ->
  generations cd legacy levels b = Ok (Some (map_buffer (passed levels) b)).
Proof.
  induction levels as [|sf t IH]; intros b HB HL; cbn [generations].
  - do 2 f_equal. destruct b as [p d]. unfold map_buffer, passed. cbn [bpar bdec]. f_equal. symmetry. rewrite <- (map_id d) at 2. apply map_ext. intros ch. rewrite <- (map_id ch) at 2. apply map_ext.
    intros [r c e]. unfold map_mat. cbn [rows cols elts]. f_equal. apply map_id.
  - inversion HL; subst. destruct (one b sf HB ltac:(auto)) as (blob & E1 & E2). rewrite E1. cbn [bind]. rewrite E2. cbn [bind].
    rewrite IH by (auto; apply map_storage; auto). rewrite map_map_buffer. reflexivity.
Qed.
Lemma coarsest_range levels : Forall (fun sf => 0 <= sf) levels -> 0 <= coarsest levels <= 31.
Proof. induction 1; cbn [coarsest fold_right]; [lia|]. fold (coarsest l). lia. Qed.
Lemma passed_same levels : Forall (fun sf => 0 <= sf) levels -> forall x, same_word (passed levels x) (q (coarsest levels) x).
Proof.
  induction 1 as [|sf t Hsf Ht IH]; intros x; cbn [passed coarsest fold_right].
  - left. symmetry. apply HQ.
  - fold (coarsest t). pose proof (coarsest_range t Ht) as R. eapply same_word_trans; [apply IH|]. eapply same_word_trans; [apply q_same; [lia|apply cleaned_same; lia]|].
    left. destruct HQ as (_ & H2 & _). rewrite H2 by lia. f_equal. lia.
Qed.
Lemma coarsest_only levels b : storage b -> Forall (fun sf => 0 <= sf) levels ->
  exists b', generations cd legacy levels b = Ok (Some b') /\ same_buffer b' (map_buffer (q (coarsest levels)) b).
Proof. intros HB HL. eexists. split; [apply run_passed; auto|]. apply same_map. apply passed_same. auto. Qed.

(** from the second generation of one level on, nothing changes *)
Lemma cleaned_twice s x : 0 <= s <= 31 -> cleaned s (cleaned s (cleaned s x)) = cleaned s (cleaned s x).
Proof.
  intros Hs. destruct (Z.eqb_spec s 0) as [E0|N]; unfold cleaned; [subst; reflexivity|]. destruct (Z.eqb_spec s 0); [congruence|]. unfold clean.
  destruct (is_zero x) eqn:E1; [rewrite zero_zero; reflexivity|]. destruct (is_zero (q s x)) eqn:E2; [rewrite zero_zero; reflexivity|].
  assert (QQ : q s (q s x) = q s x) by (destruct HQ as (_ & H2 & _); rewrite H2 by lia; f_equal; lia). rewrite !QQ, ?E2, ?QQ. reflexivity.
Qed.
Lemma settled b sf b2 blob : storage b -> 0 <= sf -> generations cd legacy [sf; sf] b = Ok (Some b2) -> serialize cd b2 sf = Ok (Some blob) ->
  parse cd legacy blob = Ok (Some b2).
Proof.
  intros HB Hs E E2. rewrite run_passed in E by (auto; repeat constructor; auto). cbn [passed] in E. injection E as <-.
  match type of E2 with serialize cd ?x sf = _ => destruct (one x sf) as (blob' & E3 & E4); [apply map_storage; auto|auto|] end.
  assert (blob' = blob) by congruence. subst blob'. rewrite E4. do 2 f_equal. rewrite map_map_buffer. apply map_buffer_ext. intros x. apply cleaned_twice. lia.
Qed.
End Gen.

(** the plain codec *)
Lemma plain_nested : nested (fun s => clear_low (if s =? 0 then 32 else 33 - s)).
Proof.
  assert (P : forall s, 0 <= s <= 31 -> exists k, (if s =? 0 then 32 else 33 - s) = 32 - k /\ 0 <= k <= 30 /\ (s = 0 \/ k = s - 1) /\ (s = 0 -> k = 0)).
  { intros s Hs. destruct (Z.eqb_spec s 0) as [->|]; [exists 0; lia|exists (s - 1); lia]. }
  assert (CW : forall k x, 0 <= k <= 30 -> wbits (clear_low (32 - k) x) = wbits x / 2 ^ k * 2 ^ k).
  { intros k x Hk. unfold clear_low. replace (32 - (32 - k)) with k by lia. cbn [mkword wbits]. apply Z.mod_small. pose proof (wbits_range x) as W.
    pose proof (Z.pow_pos_nonneg 2 k ltac:(lia) ltac:(lia)) as K. pose proof (Z.mul_div_le (wbits x) (2 ^ k) K). pose proof (Z.div_pos (wbits x) (2 ^ k) ltac:(lia) K). nia. }
  split; [|split].
  - intros x. cbn [Z.eqb]. apply clear_low_32.
  - intros s t x Hs Ht. destruct (P s Hs) as (k & -> & Hk & Es & E0). destruct (P t Ht) as (j & -> & Hj & Et & F0). destruct (P (Z.max s t) ltac:(lia)) as (i & -> & Hi & Em & M0).
    assert (EI : i = Z.max k j) by lia. rewrite <- (mkword_wbits (clear_low (32 - k) _)), <- (mkword_wbits (clear_low (32 - i) x)). f_equal. rewrite !CW by lia. rewrite EI.
    pose proof (Z.pow_pos_nonneg 2 k ltac:(lia) ltac:(lia)) as K. pose proof (Z.pow_pos_nonneg 2 j ltac:(lia) ltac:(lia)) as J.
    destruct (Z.le_gt_cases k j) as [L|L].
    + rewrite Z.max_r by lia. replace j with (k + (j - k)) by lia. rewrite Z.pow_add_r by lia. rewrite (Z.mul_comm (2 ^ k)) at 2. rewrite Z.mul_assoc. rewrite Z.div_mul by lia. ring.
    + rewrite Z.max_l by lia. replace k with (j + (k - j)) by lia. rewrite Z.pow_add_r by lia. f_equal. rewrite <- !Z.div_div by (try lia; apply Z.pow_pos_nonneg; lia). rewrite Z.div_mul by lia. reflexivity.
  - intros s x Hs Hx. destruct (P s Hs) as (k & -> & Hk & _). unfold is_zero in *. rewrite CW by lia. apply orb_true_iff in Hx as [Hx|Hx]; apply Z.eqb_eq in Hx; rewrite Hx.
    + rewrite Z.div_0_l by (apply Z.pow_nonzero; lia). reflexivity.
    + assert (E : 2 ^ 31 / 2 ^ k * 2 ^ k = 2 ^ 31).
      { replace 31 with (31 - k + k) by lia. rewrite Z.pow_add_r by lia. rewrite Z.div_mul by (apply Z.pow_nonzero; lia). reflexivity. }
      rewrite E. reflexivity.
Qed.
Lemma plain_levels s : 1 <= s <= 31 -> codec_faithful plain_codec (33 - s) (clear_low (if s =? 0 then 32 else 33 - s)) /\ codec_total plain_codec (33 - s).
Proof. intros Hs. destruct (Z.eqb_spec s 0); [lia|]. split; [apply plain_faithful; lia|apply plain_total]. Qed.
