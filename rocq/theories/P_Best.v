(** * P_Best: the library denoisers choose best approximations. *)
Require Import List Bool Arith ZArith QArith Qreals Lia Reals Lra Psatz Permutation.
Require Import ZifyBool.
Require Import Verif.M_Base Verif.M_Params Verif.M_Padding Verif.M_Wavelet Verif.M_Buffer Verif.M_Real Verif.M_Denoise.
Require Import Verif.S_Params Verif.S_Padding Verif.S_Buffer Verif.S_Exact Verif.S_Round Verif.S_Stable Verif.S_Denoise Verif.S_Best.
Require Import Verif.P_Base Verif.P_Wavelet Verif.P_Buffer Verif.P_Impl Verif.P_Api Verif.P_Api2 Verif.P_Denoise.
Require Import Verif.P_Sum Verif.P_Exact Verif.P_Round3 Verif.P_Stable Verif.P_Stable2 Verif.P_Dual3.
Import ListNotations.
Open Scope R_scope.

(** ** one list *)
(** every value is kept (and then its square is at least T) or zeroed (at most T) *)
Definition chosen (T : R) (data out : list R) : Prop :=
  Forall2 (fun x o => (o = x /\ T <= x * x) \/ (o = 0 /\ x * x <= T)) data out.

Lemma chosen_best T data out y : 0 <= T -> chosen T data out -> length y = length data ->
  gap data out + T * INR (nonzeros out) <= gap data y + T * INR (nonzeros y).
Proof.
  intros HT H. revert y. induction H as [|x o data out Hx H IH]; intros [|v y] HL; try discriminate; [cbn; lra|].
  cbn [gap nonzeros]. rewrite !plus_INR. specialize (IH y ltac:(simpl in HL; lia)).
  pose proof (Rle_0_sqr (v - x)) as Q. unfold Rsqr in Q.
  destruct Hx as [(-> & Hx)|(-> & Hx)].
  - destruct (Req_EM_T x 0) as [->|N], (Req_EM_T v 0) as [->|N']; cbn [INR]; nra.
  - destruct (Req_EM_T 0 0) as [_|N]; [|lra]. destruct (Req_EM_T v 0) as [->|N']; cbn [INR]; nra.
Qed.

Lemma chosen_length T data out : chosen T data out -> length out = length data.
Proof. induction 1; simpl; auto. Qed.

(** the nonzero values are those at the kept positions *)
Lemma nonzeros_count l : nonzeros l = length (filter (fun i => if Req_EM_T (nth i l 0) 0 then false else true) (seq 0 (length l))).
Proof.
  induction l as [|x l IH]; [reflexivity|]. cbn [nonzeros length seq filter]. change (nth 0 (x :: l) 0) with x. rewrite IH.
  rewrite <- seq_shift. 
  assert (E : forall s, length (filter (fun i => if Req_EM_T (nth i (x :: l) 0) 0 then false else true) (map S s))
             = length (filter (fun i => if Req_EM_T (nth i l 0) 0 then false else true) s)).
  { induction s as [|k s IHs]; [reflexivity|]. cbn [map filter]. change (nth (S k) (x :: l) 0) with (nth k l 0). destruct (Req_EM_T (nth k l 0) 0); cbn [length]; rewrite IHs; reflexivity. }
  destruct (Req_EM_T x 0); cbn [length]; rewrite E; lia.
Qed.

Lemma nonzeros_le_keep (keep : list nat) (data out : list R) : keeps_only1 keep data out -> (nonzeros out <= length keep)%nat.
Proof.
  intros (HL & H). rewrite nonzeros_count. apply NoDup_incl_length; [apply NoDup_filter, seq_NoDup|].
  intros i Hi. apply filter_In in Hi as (Hi & Hz). apply in_seq in Hi.
  destruct (nth_error data i) as [x|] eqn:E.
  2:{ apply nth_error_None in E. lia. }
  specialize (H i x E). destruct (existsb (Nat.eqb i) keep) eqn:K.
  - apply existsb_exists in K as (j & Hj & Ej). apply Nat.eqb_eq in Ej. subst. auto.
  - apply (nth_error_nth _ _ 0) in H. rewrite H in Hz. cbn in Hz. destruct (Req_EM_T 0 0); [discriminate|lra].
Qed.
Lemma keep_le_nonzeros (keep : list nat) (data out : list R) : keeps_only1 keep data out -> NoDup keep ->
  Forall (fun i => (i < length data)%nat) keep -> (forall i x, In i keep -> nth_error data i = Some x -> x <> 0) ->
  (length keep <= nonzeros out)%nat.
Proof.
  intros (HL & H) ND HF HN. rewrite nonzeros_count. apply NoDup_incl_length; auto.
  intros i Hi. rewrite Forall_forall in HF. pose proof (HF i Hi) as Hlt. apply filter_In. split; [apply in_seq; lia|].
  destruct (nth_error data i) as [x|] eqn:E.
  2:{ apply nth_error_None in E. lia. }
  specialize (H i x E). replace (existsb (Nat.eqb i) keep) with true in H.
  2:{ symmetry. apply existsb_exists. exists i. split; auto. apply Nat.eqb_refl. }
  apply (nth_error_nth _ _ 0) in H. rewrite H. destruct (Req_EM_T x 0); auto. exfalso. eapply HN; eauto.
Qed.

Lemma nth_Forall2 {X Y} (P : X -> Y -> Prop) l l' : length l = length l' ->
  (forall i x y, nth_error l i = Some x -> nth_error l' i = Some y -> P x y) -> Forall2 P l l'.
Proof.
  revert l'. induction l as [|x l IH]; intros [|y l'] HL H; try discriminate; constructor.
  - apply (H O); auto.
  - apply IH; [simpl in HL; lia|]. intros i. apply (H (S i)).
Qed.

(** the least square at the kept positions *)
Lemma least_square (f : nat -> R) keep : keep <> [] ->
  exists T, 0 <= T /\ (forall i, In i keep -> T <= f i * f i) /\ (exists i, In i keep /\ T = f i * f i).
Proof.
  induction keep as [|k [|k' r] IH]; intros H; [congruence| |].
  - exists (f k * f k). split; [nra|]. split; [intros i [->|[]]; lra|]. exists k. split; auto. left; auto.
  - destruct IH as (T & HT & H1 & i & Hi & E); [discriminate|].
    destruct (Rle_dec (f k * f k) T).
    + exists (f k * f k). split; [nra|]. split; [|exists k; split; auto; left; auto].
      intros j [->|Hj]; [lra|]. specialize (H1 j Hj). lra.
    + exists T. split; auto. split; [|exists i; split; auto; right; auto].
      intros j [->|Hj]; [lra|]. auto.
Qed.

Lemma keep_best (keep : list nat) (data out y : list R) : keeps_only1 keep data out -> NoDup keep ->
  Forall (fun i => (i < length data)%nat) keep -> (length data = 0 \/ keep <> [])%nat ->
  (forall i j x v, In i keep -> ~ In j keep -> nth_error data i = Some x -> nth_error data j = Some v -> Rabs v <= Rabs x) ->
  length y = length data -> (nonzeros y <= length keep)%nat -> gap data out <= gap data y.
Proof.
  intros HK ND HF HN HM HL Hy.
  destruct HN as [HN|HN].
  { destruct data; [|discriminate]. simpl. destruct y; simpl; lra. }
  destruct (least_square (fun i => nth i data 0) keep HN) as (T & HT & H1 & i0 & Hi0 & E0).
  assert (C : chosen T data out).
  { apply nth_Forall2; [symmetry; apply HK|]. intros i x o Ex Eo. rewrite (proj2 HK i x Ex) in Eo. inversion Eo; subst o; clear Eo.
    destruct (existsb (Nat.eqb i) keep) eqn:K.
    - left. split; auto. apply existsb_exists in K as (j & Hj & Ej). apply Nat.eqb_eq in Ej. subst j.
      specialize (H1 i Hj). cbv beta in H1. rewrite (nth_error_nth _ _ 0 Ex) in H1. auto.
    - right. split; auto. rewrite E0.
      assert (Ni : ~ In i keep).
      { intros Hi. assert (X : existsb (Nat.eqb i) keep = true) by (apply existsb_exists; exists i; split; auto; apply Nat.eqb_refl). congruence. }
      rewrite Forall_forall in HF. pose proof (HF i0 Hi0) as Hlt.
      destruct (nth_error data i0) as [x0|] eqn:Ex0; [|apply nth_error_None in Ex0; lia].
      rewrite (nth_error_nth _ _ 0 Ex0). pose proof (HM i0 i x0 x Hi0 Ni Ex0 Ex) as HA.
      assert (Rsqr x <= Rsqr x0) by (apply Rsqr_le_abs_1; auto). unfold Rsqr in *. auto. }
  pose proof (chosen_best T data out y HT C HL) as B.
  destruct (Req_EM_T T 0) as [->|NT]; [rewrite !Rmult_0_l in B; lra|].
  assert (KN : (length keep <= nonzeros out)%nat).
  { eapply keep_le_nonzeros; eauto. intros i x Hi Ex X. subst x. specialize (H1 i Hi). cbv beta in H1.
    rewrite (nth_error_nth _ _ 0 Ex) in H1. lra. }
  assert (INR (nonzeros y) <= INR (nonzeros out)) by (apply le_INR; lia).
  assert (T * INR (nonzeros y) <= T * INR (nonzeros out)) by (apply Rmult_le_compat_l; auto). lra.
Qed.

(** ** the simple denoiser on lists and matrices *)
Lemma slice_nonempty n drop : (n = 0 \/ n - Nat.min drop (n - 1) <> 0)%nat.
Proof. lia. Qed.

Theorem simple_best1 ne level (data : list R) : nth_element_contract ne -> 0 <= level <= 1 ->
  exists out k, simple1 ne level data = Ok out /\ survivors level (length data) k /\
    length out = length data /\ (nonzeros out <= k)%nat /\
    forall y, length y = length data -> (nonzeros y <= k)%nat -> gap data out <= gap data y.
Proof.
  intros HC Hl. destruct (simple_real1 ne level data HC Hl) as (out & keep & drop & E & HD & ND & HF & HL & HK & HM).
  exists out, (length keep). split; auto. split; [exists drop; auto|]. split; [apply HK|].
  split; [eapply nonzeros_le_keep; eauto|]. intros y Hy HZ. apply (keep_best keep); auto.
  destruct (slice_nonempty (length data) drop) as [X|X]; [left; exact X|right].
  intros ->. simpl in HL. lia.
Qed.

Definition flat (c : nat) (q : nat * nat) : nat := (fst q * c + snd q)%nat.
Lemma flat_inj c q q' : (snd q < c)%nat -> (snd q' < c)%nat -> flat c q = flat c q' -> q = q'.
Proof.
  destruct q as [i j], q' as [i' j']. unfold flat; cbn [fst snd]. intros H1 H2 E.
  assert (i = i'). { destruct (lt_eq_lt_dec i i') as [[H|H]|H]; auto; exfalso; nia. }
  subst. f_equal. lia.
Qed.
Lemma mget_flat (m : mat R) i j : mwf m -> (i < rows m)%nat -> (j < cols m)%nat -> nth_error (elts m) (flat (cols m) (i, j)) = match mget m i j with Ok x => Some x | _ => None end.
Proof.
  intros W Hi Hj. unfold mget, flat. cbn [fst snd]. replace ((i <? rows m) && (j <? cols m))%nat with true by lia.
  cbn [guard bind]. unfold rd. destruct (nth_error (elts m) (i * cols m + j)); reflexivity.
Qed.
Lemma keeps_flat keep (data out : mat R) : mwf data -> keeps_only2 keep data out ->
  Forall (fun q => (fst q < rows data)%nat /\ (snd q < cols data)%nat) keep ->
  keeps_only1 (map (flat (cols data)) keep) (elts data) (elts out).
Proof.
  intros W (W' & Er & Ec & H) HF. split; [unfold mwf in *; congruence|]. intros k x Ek.
  assert (Hk : (k < rows data * cols data)%nat) by (rewrite <- W; apply nth_error_Some; congruence).
  assert (Hc : (0 < cols data)%nat) by nia.
  set (i := (k / cols data)%nat). set (j := (k mod cols data)%nat).
  assert (Hi : (i < rows data)%nat) by (apply Nat.div_lt_upper_bound; lia).
  assert (Hj : (j < cols data)%nat) by (apply Nat.mod_upper_bound; lia).
  assert (Ekk : k = flat (cols data) (i, j)).
  { unfold flat, i, j; cbn [fst snd]. rewrite (Nat.mul_comm (k / cols data)). apply Nat.div_mod. lia. }
  assert (G : mget data i j = Ok x).
  { rewrite Ekk, mget_flat in Ek by auto. destruct (mget data i j); congruence. }
  specialize (H i j x G).
  assert (P : existsb (Nat.eqb k) (map (flat (cols data)) keep) = in_pos i j keep).
  { unfold in_pos. clearbody i j. subst k. clear -HF Hj. induction HF as [|q r Hq HF IH]; [reflexivity|]. cbn [existsb map].
    rewrite IH. f_equal. destruct (Nat.eqb_spec (flat (cols data) (i, j)) (flat (cols data) q)) as [E|E].
    - apply flat_inj in E; [|exact Hj|apply Hq]. subst q. cbn [fst snd]. rewrite !Nat.eqb_refl. reflexivity.
    - destruct q as [i' j']. cbn [fst snd]. destruct (Nat.eqb_spec i i'), (Nat.eqb_spec j j'); cbn; auto. exfalso. apply E. congruence. }
  rewrite P, Ekk, <- Ec. rewrite mget_flat by (auto; congruence). rewrite H. reflexivity.
Qed.

Theorem simple_best2 ne level (data : mat R) : mwf data -> nth_element_contract ne -> 0 <= level <= 1 ->
  exists out k, simple2 ne level data = Ok out /\ survivors level (length (elts data)) k /\
    sized (rows data) (cols data) out /\ (nonzeros (elts out) <= k)%nat /\
    forall y, length y = length (elts data) -> (nonzeros y <= k)%nat -> gap (elts data) (elts out) <= gap (elts data) y.
Proof.
  intros W HC Hl. destruct (simple_real2 ne level data W HC Hl) as (out & keep & drop & E & HD & ND & HF & HL & HK & HM).
  pose proof (keeps_flat keep data out W HK HF) as KF.
  exists out, (length keep). split; auto. split; [exists drop; unfold mwf in W; rewrite W; auto|].
  split; [split; [apply HK|split; apply HK]|].
  split; [rewrite <- (map_length (flat (cols data))); eapply nonzeros_le_keep; eauto|].
  intros y Hy HZ. apply (keep_best (map (flat (cols data)) keep)); auto.
  - clear -ND HF. induction keep as [|q r IH]; [constructor|]. inversion ND; inversion HF; subst. cbn [map]. constructor; auto.
    intros Hin. apply in_map_iff in Hin as (q' & E & Hq'). rewrite Forall_forall in H6. pose proof (H6 q' Hq').
    apply flat_inj in E; [|apply H|apply H5]. subst. auto.
  - apply Forall_forall. intros k Hk. apply in_map_iff in Hk as ((i, j) & <- & Hin). rewrite Forall_forall in HF.
    destruct (HF _ Hin) as [Hi Hj]. unfold mwf in W. rewrite W. unfold flat; cbn [fst snd] in *. nia.
  - unfold mwf in W. rewrite W. destruct (slice_nonempty (rows data * cols data) drop) as [X|X]; [left; exact X|right].
    destruct keep; [|discriminate]. simpl in HL. lia.
  - intros k k' x v Hk Hk' Ex Ev. apply in_map_iff in Hk as ((i, j) & <- & Hin). rewrite Forall_forall in HF.
    destruct (HF _ Hin) as [Hi Hj]. cbn [fst snd] in *.
    rewrite mget_flat in Ex by auto.
    assert (Hlt : (k' < rows data * cols data)%nat) by (rewrite <- W; apply nth_error_Some; congruence).
    assert (Hc : (0 < cols data)%nat) by nia.
    assert (Hi' : (k' / cols data < rows data)%nat) by (apply Nat.div_lt_upper_bound; lia).
    assert (Hj' : (k' mod cols data < cols data)%nat) by (apply Nat.mod_upper_bound; lia).
    assert (Ekk : k' = flat (cols data) (k' / cols data, k' mod cols data)%nat).
    { unfold flat; cbn [fst snd]. rewrite (Nat.mul_comm (k' / cols data)). apply Nat.div_mod. lia. }
    rewrite Ekk, mget_flat in Ev by auto.
    apply (HM i j (k' / cols data)%nat (k' mod cols data)%nat x v Hin).
    + intros Hin'. apply Hk'. rewrite Ekk. apply in_map. auto.
    + destruct (mget data i j); congruence.
    + destruct (mget data (k' / cols data) (k' mod cols data)); congruence.
  - rewrite map_length. auto.
Qed.

Lemma survivors_fun level n k k' : survivors level n k -> survivors level n k' -> k = k'.
Proof.
  intros (d & [A B] & ->) (d' & [A' B'] & ->). assert (d = d'); [|subst; auto].
  rewrite <- S_INR in B, B'. assert (INR d < INR (S d')) by lra. assert (INR d' < INR (S d)) by lra.
  apply INR_lt in H, H0. lia.
Qed.
Lemma gap_refl l : gap l l = 0.
Proof. induction l; simpl; auto. rewrite IHl. ring. Qed.

(** doing it again changes nothing *)
Theorem simple_again1 ne level (data out : list R) : nth_element_contract ne -> 0 <= level <= 1 ->
  simple1 ne level data = Ok out -> simple1 ne level out = Ok out.
Proof.
  intros HC Hl E. destruct (simple_best1 ne level data HC Hl) as (o & k & E1 & HS & HL & HN & _).
  assert (o = out) by congruence. subst o.
  destruct (simple_best1 ne level out HC Hl) as (o & k' & E2 & HS' & HL' & _ & HB).
  rewrite HL in HS'. assert (k' = k) by (eapply survivors_fun; eauto). subst k'.
  specialize (HB out eq_refl HN). rewrite gap_refl in HB. pose proof (gap_nonneg out o).
  rewrite E2. f_equal. symmetry. apply gap_0; [congruence|lra].
Qed.
Theorem simple_again2 ne level (data out : mat R) : mwf data -> nth_element_contract ne -> 0 <= level <= 1 ->
  simple2 ne level data = Ok out -> simple2 ne level out = Ok out.
Proof.
  intros W HC Hl E. destruct (simple_best2 ne level data W HC Hl) as (o & k & E1 & HS & (W1 & R1 & C1) & HN & _).
  assert (o = out) by congruence. subst o.
  destruct (simple_best2 ne level out W1 HC Hl) as (o & k' & E2 & HS' & (W2 & R2 & C2) & _ & HB).
  replace (length (elts out)) with (length (elts data)) in HS' by (unfold mwf in *; congruence).
  assert (k' = k) by (eapply survivors_fun; eauto). subst k'.
  specialize (HB (elts out) eq_refl HN). rewrite gap_refl in HB. pose proof (gap_nonneg (elts out) (elts o)).
  rewrite E2. f_equal. destruct o as [r c l], out as [r' c' l']. cbn [rows cols elts] in *. subst. f_equal.
  symmetry. apply gap_0; [|lra]. unfold mwf in *; cbn [rows cols elts] in *. congruence.
Qed.

(** ** channels *)
Lemma rsum_le n f g : (forall i, (i < n)%nat -> f i <= g i) -> P_Sum.rsum n f <= P_Sum.rsum n g.
Proof. induction n; intros H; simpl; [lra|]. pose proof (H n ltac:(lia)). pose proof (IHn ltac:(intros; apply H; lia)). lra. Qed.
Lemma rsum_add n f g : P_Sum.rsum n f + P_Sum.rsum n g = P_Sum.rsum n (fun i => f i + g i).
Proof. induction n; simpl; [lra|]. rewrite <- IHn. ring. Qed.

Lemma cost_rsum a b p ch k : cost_from a b p k ch = P_Sum.rsum (length ch) (fun i =>
  if Nat.ltb (k + i) (nsteps p * bands p) then step_cost a b ((k + i) / bands p) * INR (nonzeros (elts (nth i ch mempty))) else 0).
Proof.
  revert k. induction ch as [|d r IH]; intros k; [reflexivity|]. cbn [cost_from length]. rewrite rsum_S, IH. cbn [nth].
  rewrite Nat.add_0_r. f_equal. apply P_Sum.rsum_ext. intros i Hi. replace (k + S i)%nat with (S k + i)%nat by lia. reflexivity.
Qed.

Section Channel.
Variable p : params.
Hypothesis Hb : (0 < bands p)%nat.

Lemma pick (F : nat -> list R -> R) (ch0 ch1 ch : list (mat R)) :
  has_layout p ch0 -> has_layout p ch1 -> has_layout p ch ->
  nth_error ch1 (nsteps p * bands p) = nth_error ch0 (nsteps p * bands p) ->
  (forall s i d0 d1 d, (s < nsteps p)%nat -> (i < bands p)%nat -> nth_error ch0 (s * bands p + i) = Some d0 ->
     nth_error ch1 (s * bands p + i) = Some d1 -> nth_error ch (s * bands p + i) = Some d ->
     gap (elts d0) (elts d1) + F s (elts d1) <= gap (elts d0) (elts d) + F s (elts d)) ->
  let cost ch := P_Sum.rsum (nsteps p * bands p + 1) (fun k => if Nat.ltb k (nsteps p * bands p) then F (k / bands p)%nat (elts (nth k ch mempty)) else 0) in
  distance2 ch0 ch1 + cost ch1 <= distance2 ch0 ch + cost ch.
Proof.
  intros (L0 & D0 & A0) (L1 & D1 & A1) (L & D & A) EA H cost.
  rewrite !dist_rsum by congruence. rewrite L0. unfold cost. rewrite !rsum_add. apply rsum_le. intros k Hk.
  destruct (Nat.ltb_spec k (nsteps p * bands p)) as [Hlt|Hge].
  - assert (Ek : k = (k / bands p * bands p + k mod bands p)%nat) by (rewrite Nat.mul_comm; apply Nat.div_mod; lia).
    assert (K1 : (k / bands p < nsteps p)%nat) by (apply Nat.div_lt_upper_bound; lia).
    assert (K2 : (k mod bands p < bands p)%nat) by (apply Nat.mod_upper_bound; lia).
    apply (H (k / bands p)%nat (k mod bands p)%nat); auto; rewrite <- Ek; apply nth_error_nth'; lia.
  - assert (k = nsteps p * bands p)%nat by lia. subst k.
    assert (E : nth (nsteps p * bands p) ch1 mempty = nth (nsteps p * bands p) ch0 mempty).
    { destruct (nth_error ch1 (nsteps p * bands p)) as [d|] eqn:E1.
      - symmetry in EA. rewrite (nth_error_nth _ _ _ E1), (nth_error_nth _ _ _ EA). reflexivity.
      - apply nth_error_None in E1. lia. }
    rewrite E, gap_refl. pose proof (gap_nonneg (elts (nth (nsteps p * bands p) ch0 mempty)) (elts (nth (nsteps p * bands p) ch mempty))). lra.
Qed.
End Channel.

Section Api.
Variable p : params.
Hypothesis HA : accepted p.
Hypothesis Er : level_rows p 0 = drows p.
Hypothesis Ec : level_cols p 0 = dcols p.
Hypothesis Et : wtype p = 1%Z.

Lemma bands_pos : (0 < bands p)%nat.
Proof. unfold bands. destruct (is_1d p); lia. Qed.

(** the composed signal and a competitor, as distances of channels *)
Lemma competitor (b : buffer R) data data2 : reachable p b ->
  (1 <= signum p)%Z -> Z.of_nat (length data) = signum p -> Forall (shaped p) data ->
  Z.of_nat (length data2) = signum p -> Forall (shaped p) data2 ->
  forall c m m2, nth_error data c = Some m -> nth_error data2 c = Some m2 ->
    error p m2 m = sqrt (distance2 (dec_of p null_denoiser m) (dec_of p null_denoiser m2)).
Proof.
  intros Hr Hs HL HS HL2 HS2 c m m2 Hm Hm2.
  destruct (perfect_reconstruction p HA b data2 Et Hr Hs HL2 HS2) as (b2 & D2 & C2).
  rewrite (dec_okA p HA b data2) in D2 by auto. inversion D2; subst b2; clear D2.
  destruct (isometry_api p b data (map (dec_of p null_denoiser) data2) HA Er Ec Et Hr Hs HL HS) as (b0 & out & D0 & C0 & _ & H).
  - rewrite map_length. lia.
  - apply Forall_forall. intros ch Hc. apply in_map_iff in Hc as (x & <- & _). apply dec_of_layout; auto. apply null_keepsA.
  - rewrite (dec_okA p HA b data) in D0 by auto. inversion D0; subst b0; clear D0.
    assert (out = data2) by congruence. subst out.
    apply (H c m _ _ m2 Hm); auto; cbn [bdec]; rewrite nth_error_map; [rewrite Hm|rewrite Hm2]; reflexivity.
Qed.

(** any denoiser *)
Lemma denoised_signal (b : buffer R) data den : reachable p b -> keeps_shape den ->
  (1 <= signum p)%Z -> Z.of_nat (length data) = signum p -> Forall (shaped p) data ->
  exists b1 out, decompose b data den = Ok (true, b1) /\ compose b1 0 = Ok (true, out) /\ length out = length data /\
    bdec b1 = map (dec_of p den) data /\ Forall (has_layout p) (bdec b1) /\
    forall c m o, nth_error data c = Some m -> nth_error out c = Some o ->
      error p o m = sqrt (distance2 (dec_of p null_denoiser m) (dec_of p den m)).
Proof.
  intros Hr Hd Hs HL HS. exists (Buffer p (map (dec_of p den) data)).
  assert (LY : Forall (has_layout p) (map (dec_of p den) data)).
  { apply Forall_forall. intros ch Hc. apply in_map_iff in Hc as (x & <- & _). apply dec_of_layout; auto. }
  destruct (isometry_api p b data (map (dec_of p den) data) HA Er Ec Et Hr Hs HL HS) as (b0 & out & D0 & C0 & LO & H); auto.
  { apply map_length. }
  exists out. split; [apply (safe_ok p); auto|]. split; auto. split; auto. split; auto. split; auto.
  rewrite (dec_okA p HA b data) in D0 by auto. inversion D0; subst b0; clear D0.
  intros c m o Hm Ho. apply (H c m _ _ o Hm); auto; cbn [bdec]; rewrite nth_error_map, Hm; reflexivity.
Qed.
Lemma denoised_bands (b : buffer R) data den : reachable p b -> keeps_shape den ->
  (1 <= signum p)%Z -> Z.of_nat (length data) = signum p -> Forall (shaped p) data ->
  forall m, In m data ->
    nth_error (dec_of p den m) (nsteps p * bands p) = nth_error (dec_of p null_denoiser m) (nsteps p * bands p) /\
    forall s i d0 d1, (s < nsteps p)%nat -> (i < bands p)%nat ->
      nth_error (dec_of p null_denoiser m) (s * bands p + i) = Some d0 -> nth_error (dec_of p den m) (s * bands p + i) = Some d1 ->
      mwf d0 /\ d1 = denoised p den s d0.
Proof.
  intros Hr Hd Hs HL HS m Hin. apply In_nth_error in Hin as (c & Hm).
  destruct (denoiser_effect p b _ data den HA Hr Hs HL HS (safe_ok p b data den HA Hr Hd Hs HL HS)) as (b0 & D0 & _ & H).
  rewrite (dec_okA p HA b data) in D0 by auto. inversion D0; subst b0; clear D0. cbn [bdec] in H.
  destruct (H c (dec_of p den m) (dec_of p null_denoiser m)) as (_ & (a & Ha1 & Ha0) & HB); try (rewrite nth_error_map, Hm; reflexivity).
  split; [congruence|]. intros s i d0 d1 H1 H2 E0 E1. destruct (HB s i H1 H2) as (d & Hd0 & Hd1).
  assert (d = d0) by congruence. subst d. split; [|congruence].
  assert (LY : has_layout p (dec_of p null_denoiser m)) by (apply dec_of_layout; auto; apply null_keepsA).
  destruct LY as (_ & HLs & _). apply (HLs s i d0); auto.
Qed.

Lemma layout_elts (ch ch' : list (mat R)) s i d d' : has_layout p ch -> has_layout p ch' -> (s < nsteps p)%nat -> (i < bands p)%nat ->
  nth_error ch (s * bands p + i) = Some d -> nth_error ch' (s * bands p + i) = Some d' -> length (elts d) = length (elts d').
Proof.
  intros (_ & H & _) (_ & H' & _) H1 H2 E E'. destruct (H s i d H1 H2 E) as (W & R1 & C1). destruct (H' s i d' H1 H2 E') as (W' & R2 & C2).
  unfold mwf in *. congruence.
Qed.

(** *** the simple denoiser *)
Lemma simple_band ne1 ne2 level s d0 : nth_element_contract ne1 -> nth_element_contract ne2 -> 0 <= level <= 1 -> mwf d0 ->
  let d1 := denoised p (simple_denoiser ne1 ne2 level) s d0 in
  exists k, survivors level (length (elts d0)) k /\ length (elts d1) = length (elts d0) /\ (nonzeros (elts d1) <= k)%nat /\
    forall y, length y = length (elts d0) -> (nonzeros y <= k)%nat -> gap (elts d0) (elts d1) <= gap (elts d0) y.
Proof.
  intros H1 H2 Hl W. cbv zeta. unfold denoised. destruct (is_1d p).
  - destruct (simple_best1 ne1 level (elts d0) H1 Hl) as (out & k & E & HS & HL & HN & HB).
    cbn [den1 simple_denoiser]. rewrite E. cbn [total_of elts]. exists k. auto.
  - destruct (simple_best2 ne2 level d0 W H2 Hl) as (out & k & E & HS & (W1 & R1 & C1) & HN & HB).
    cbn [den2 simple_denoiser]. rewrite E. cbn [total_of]. exists k. split; auto. split; auto.
    unfold mwf in *. congruence.
Qed.

Theorem simple_best_signal ne1 ne2 (level : R) (b : buffer R) data : nth_element_contract ne1 -> nth_element_contract ne2 -> 0 <= level <= 1 ->
  reachable p b -> (1 <= signum p)%Z -> Z.of_nat (length data) = signum p -> Forall (shaped p) data ->
  exists b1 out, decompose b data (simple_denoiser ne1 ne2 level) = Ok (true, b1) /\ compose b1 0 = Ok (true, out) /\
    length out = length data /\ Forall (as_sparse level p) (bdec b1) /\
    forall data2 b2, Z.of_nat (length data2) = signum p -> Forall (shaped p) data2 ->
      decompose b data2 null_denoiser = Ok (true, b2) -> Forall (as_sparse level p) (bdec b2) ->
      forall c m o m2, nth_error data c = Some m -> nth_error out c = Some o -> nth_error data2 c = Some m2 ->
        error p o m <= error p m2 m.
Proof.
  intros H1 H2 Hl Hr Hs HL HS. pose proof (simple_usable ne1 ne2 level H1 H2 Hl) as Hd.
  destruct (denoised_signal b data _ Hr Hd Hs HL HS) as (b1 & out & D1 & C1 & LO & EB & LB & H).
  exists b1, out. split; auto. split; auto. split; auto. split.
  { rewrite EB. apply Forall_forall. intros ch Hc. apply in_map_iff in Hc as (m & <- & Hin).
    destruct (denoised_bands b data _ Hr Hd Hs HL HS m Hin) as (_ & HB).
    intros s i d1 Hs1 Hi1 E1.
    assert (LY : has_layout p (dec_of p null_denoiser m)) by (apply dec_of_layout; auto; apply null_keepsA).
    destruct (nth_error (dec_of p null_denoiser m) (s * bands p + i)) as [d0|] eqn:E0.
    2:{ apply nth_error_None in E0. destruct LY as (L & _). pose proof bands_pos. nia. }
    destruct (HB s i d0 d1 Hs1 Hi1 E0 E1) as (W & ->).
    destruct (simple_band ne1 ne2 level s d0 H1 H2 Hl W) as (k & K1 & K2 & K3 & _). exists k. rewrite K2. auto. }
  intros data2 b2 HL2 HS2 D2 SP c m o m2 Hm Ho Hm2.
  rewrite (dec_okA p HA b data2) in D2 by auto. inversion D2; subst b2; clear D2. cbn [bdec] in SP.
  rewrite (H c m o Hm Ho), (competitor b data data2 Hr Hs HL HS HL2 HS2 c m m2 Hm Hm2). apply sqrt_le_1_alt.
  assert (L0 : has_layout p (dec_of p null_denoiser m)) by (apply dec_of_layout; auto; apply null_keepsA).
  assert (L1 : has_layout p (dec_of p (simple_denoiser ne1 ne2 level) m)) by (apply dec_of_layout; auto).
  assert (L2 : has_layout p (dec_of p null_denoiser m2)) by (apply dec_of_layout; auto; apply null_keepsA).
  destruct (denoised_bands b data _ Hr Hd Hs HL HS m (nth_error_In _ _ Hm)) as (EA & HB).
  assert (S2 : as_sparse level p (dec_of p null_denoiser m2)).
  { rewrite Forall_forall in SP. apply SP. apply in_map. eapply nth_error_In; eauto. }
  pose proof (pick p bands_pos (fun _ _ => 0) _ _ _ L0 L1 L2 EA) as P. cbv beta zeta in P.
  assert (Z : forall n f, (forall k, f k = 0) -> P_Sum.rsum n f = 0).
  { induction n; intros f Hf; simpl; auto. rewrite IHn, Hf by auto. ring. }
  assert (Q : forall x y, x + 0 <= y + 0 -> x <= y) by (intros; lra). apply Q. clear Q.
  rewrite !Z in P by (intros; destruct (Nat.ltb _ _); reflexivity). apply P. clear P Z.
  intros s i d0 d1 d Hs1 Hi1 E0 E1 E2. rewrite !Rplus_0_r.
  destruct (HB s i d0 d1 Hs1 Hi1 E0 E1) as (W & ->).
  destruct (simple_band ne1 ne2 level s d0 H1 H2 Hl W) as (k & K1 & K2 & K3 & K4).
  destruct (S2 s i d Hs1 Hi1 E2) as (k' & K1' & K3').
  pose proof (layout_elts _ _ s i d d0 L2 L0 Hs1 Hi1 E2 E0) as LE.
  rewrite LE in K1'. assert (k' = k) by (eapply survivors_fun; eauto). subst k'. apply K4; auto.
Qed.

(** *** the threshold denoiser *)
Lemma threshold_chosen t (l : list R) : 0 <= t -> chosen (t * t) l (map (fun x => if mgt (mabs x) t then x else a0) l).
Proof.
  intros Ht. induction l as [|x l IH]; constructor; auto. cbn [mgt mabs realMag]. destruct (Rlt_dec t (Rabs x)) as [H|H].
  - left. split; auto. assert (Rsqr t <= Rsqr x); [|unfold Rsqr in *; auto]. apply Rsqr_le_abs_1. rewrite (Rabs_pos_eq t); lra.
  - right. split; auto. assert (Rsqr x <= Rsqr t); [|unfold Rsqr in *; auto]. apply Rsqr_le_abs_1. rewrite (Rabs_pos_eq t); lra.
Qed.

Theorem threshold_best_signal (ta tb : R) (b : buffer R) data : (forall s, (s < nsteps p)%nat -> 0 <= ta * INR s + tb) ->
  reachable p b -> (1 <= signum p)%Z -> Z.of_nat (length data) = signum p -> Forall (shaped p) data ->
  exists b1 out, decompose b data (threshold_denoiser ta tb) = Ok (true, b1) /\ compose b1 0 = Ok (true, out) /\
    length out = length data /\
    forall data2 b2, Z.of_nat (length data2) = signum p -> Forall (shaped p) data2 ->
      decompose b data2 null_denoiser = Ok (true, b2) ->
      forall c m o m2 ch1 ch2, nth_error data c = Some m -> nth_error out c = Some o -> nth_error data2 c = Some m2 ->
        nth_error (bdec b1) c = Some ch1 -> nth_error (bdec b2) c = Some ch2 ->
        error p o m * error p o m + detail_cost ta tb p ch1 <= error p m2 m * error p m2 m + detail_cost ta tb p ch2.
Proof.
  intros HT Hr Hs HL HS. pose proof (threshold_keeps ta tb) as Hd.
  destruct (denoised_signal b data _ Hr Hd Hs HL HS) as (b1 & out & D1 & C1 & LO & EB & LB & H).
  exists b1, out. split; auto. split; auto. split; auto.
  intros data2 b2 HL2 HS2 D2 c m o m2 ch1 ch2 Hm Ho Hm2 Hc1 Hc2.
  rewrite (dec_okA p HA b data2) in D2 by auto. inversion D2; subst b2; clear D2. cbn [bdec] in Hc2.
  rewrite EB in Hc1. rewrite nth_error_map, Hm in Hc1. rewrite nth_error_map, Hm2 in Hc2.
  inversion Hc1; inversion Hc2; subst ch1 ch2; clear Hc1 Hc2.
  rewrite (H c m o Hm Ho), (competitor b data data2 Hr Hs HL HS HL2 HS2 c m m2 Hm Hm2).
  assert (DP : forall x y, 0 <= distance2 x y).
  { induction x as [|u x IH]; intros [|v y]; cbn [distance2]; try lra. pose proof (IH y). pose proof (gap_nonneg (elts u) (elts v)). lra. }
  rewrite !sqrt_sqrt by auto.
  assert (L0 : has_layout p (dec_of p null_denoiser m)) by (apply dec_of_layout; auto; apply null_keepsA).
  assert (L1 : has_layout p (dec_of p (threshold_denoiser ta tb) m)) by (apply dec_of_layout; auto).
  assert (L2 : has_layout p (dec_of p null_denoiser m2)) by (apply dec_of_layout; auto; apply null_keepsA).
  destruct (denoised_bands b data _ Hr Hd Hs HL HS m (nth_error_In _ _ Hm)) as (EA & HB).
  unfold detail_cost. rewrite !cost_rsum. rewrite (proj1 L1), (proj1 L2).
  apply (pick p bands_pos (fun s l => step_cost ta tb s * INR (nonzeros l)) _ _ _ L0 L1 L2 EA).
  intros s i d0 d1 d Hs1 Hi1 E0 E1 E2. destruct (HB s i d0 d1 Hs1 Hi1 E0 E1) as (W & ->).
  pose proof (layout_elts _ _ s i d d0 L2 L0 Hs1 Hi1 E2 E0) as LE.
  assert (EE : elts (denoised p (threshold_denoiser ta tb) s d0) = map (fun x => if mgt (mabs x) (get_threshold ta tb s) then x else a0) (elts d0)).
  { unfold denoised. destruct (is_1d p).
    - cbn [den1 threshold_denoiser]. rewrite threshold1_ok. reflexivity.
    - cbn [den2 threshold_denoiser]. rewrite threshold2_ok by auto. reflexivity. }
  rewrite EE. apply chosen_best; auto.
  - apply Rle_0_sqr.
  - apply (threshold_chosen (ta * INR s + tb)). auto.
Qed.
End Api.
