(** * P_View2: the channels of a view *)
Require Import List Bool Arith ZArith Lia.
Require Import Verif.M_Base Verif.M_Params Verif.M_Buffer Verif.M_View Verif.M_View2.
Require Import Verif.S_Params Verif.S_Buffer Verif.P_Base Verif.P_Impl Verif.P_Api Verif.P_Api2.
Import ListNotations.
Open Scope nat_scope.
Section V.
Context {T : Type}.
Lemma nth_skipn {X} n (l : list X) i : nth_error (skipn n l) i = nth_error l (n + i).
Proof. revert l. induction n as [|n IH]; intros [|x l]; auto; [destruct i; reflexivity|apply IH]. Qed.

Lemma view_dec_ok p v (b : buffer T) : in_range v p -> Z.of_nat (length (bdec b)) = signum p -> vmutable v = true ->
  exists s, view_decompositions v b = Ok s /\ Z.of_nat (length s) = vcount v /\
    forall i, i < length s -> nth_error s i = nth_error (bdec b) (Z.to_nat (vstart v) + i).
Proof.
  intros (H1 & H2 & H3 & H4) HL HM. eexists. unfold view_decompositions, odd_range, wrap64. rewrite HM. cbn [guard bind].
  rewrite Z.mod_small by lia. replace (_ <=? _)%Z with true by (symmetry; apply Z.leb_le; lia). cbn [check bind].
  replace ((vstart v <? 0) || (vcount v <? 0))%Z with false by (symmetry; apply orb_false_iff; split; apply Z.ltb_ge; lia). cbn [negb guard bind].
  split; [reflexivity|]. rewrite firstn_length, skipn_length. split; [lia|].
  intros i Hi. rewrite nth_error_firstn by lia. apply nth_skipn.
Qed.
Lemma view_dec_const v (b : buffer T) : vmutable v = false -> view_decompositions v b = UB.
Proof. intros H. unfold view_decompositions. rewrite H. reflexivity. Qed.
Lemma view_dec_out v (b : buffer T) : vmutable v = true -> (Z.of_nat (length (bdec b)) < 2 ^ 63)%Z ->
  (- 2 ^ 32 <= vstart v + vcount v < 2 ^ 32)%Z ->
  (vstart v + vcount v < 0 \/ Z.of_nat (length (bdec b)) < vstart v + vcount v)%Z -> view_decompositions v b = Throw.
Proof.
  intros HM HL HB H. unfold view_decompositions, wrap64. rewrite HM. cbn [guard bind].
  replace (_ <=? _)%Z with false; [reflexivity|]. symmetry. apply Z.leb_gt. destruct (Z_lt_dec (vstart v + vcount v) 0).
  - rewrite <- (Z_mod_plus_full _ 1). rewrite Z.mod_small by lia. lia.
  - rewrite Z.mod_small by lia. lia.
Qed.
Lemma view_dec_wrapped v (b : buffer T) : vmutable v = true ->
  (vstart v < 0 \/ vcount v < 0)%Z -> (0 <= vstart v + vcount v <= Z.of_nat (length (bdec b)))%Z -> (vstart v + vcount v < 2 ^ 64)%Z ->
  view_decompositions v b = UB.
Proof.
  intros HM HB H HS. unfold view_decompositions, odd_range, wrap64. rewrite HM. cbn [guard bind].
  rewrite Z.mod_small by lia. replace (_ <=? _)%Z with true by (symmetry; apply Z.leb_le; lia). cbn [check bind].
  replace ((vstart v <? 0) || (vcount v <? 0))%Z with true; [reflexivity|]. symmetry. apply orb_true_iff. rewrite !Z.ltb_lt. auto.
Qed.
Lemma upd_length {X} (l : list X) i a : length (upd l i a) = length l.
Proof. revert i. induction l as [|x l IH]; intros [|i]; cbn; auto. Qed.
Lemma upd_nth {X} (l : list X) i a j : i < length l -> nth_error (upd l i a) j = if j =? i then Some a else nth_error l j.
Proof.
  revert i j. induction l as [|x l IH]; intros [|i] [|j] H; cbn in *; try lia; auto. apply IH. lia.
Qed.
Lemma view_store_ok p v (b : buffer T) i ch : in_range v p -> Z.of_nat (length (bdec b)) = signum p -> vmutable v = true ->
  (Z.of_nat i < vcount v)%Z ->
  exists b', view_store v b i ch = Ok b' /\ bpar b' = bpar b /\ length (bdec b') = length (bdec b) /\
    view_channel v b' i = Ok ch /\
    forall j, j <> Z.to_nat (vstart v) + i -> nth_error (bdec b') j = nth_error (bdec b) j.
Proof.
  intros HR HL HM Hi. destruct (view_dec_ok p v b HR HL HM) as (s & E & Ls & _). pose proof HR as (H1 & H2 & H3 & _).
  unfold view_store. rewrite E. cbn [bind]. replace (i <? length s) with true by (symmetry; apply Nat.ltb_lt; lia). cbn [guard bind].
  unfold wr. replace (Z.to_nat (vstart v) + i <? length (bdec b)) with true by (symmetry; apply Nat.ltb_lt; lia). cbn [bind].
  eexists. split; [reflexivity|]. cbn [bpar bdec]. split; [reflexivity|]. split; [apply upd_length|]. split.
  - set (b2 := Buffer (bpar b) (upd (bdec b) (Z.to_nat (vstart v) + i) ch)).
    destruct (view_dec_ok p v b2 HR) as (s2 & E2 & L2 & N2); auto; [cbn [bdec b2]; rewrite upd_length; auto|].
    unfold view_channel. rewrite E2. cbn [bind]. unfold rd. rewrite N2 by lia. cbn [bdec b2]. rewrite upd_nth by lia. rewrite Nat.eqb_refl. reflexivity.
  - intros j Hj. rewrite upd_nth by lia. destruct (Nat.eqb_spec j (Z.to_nat (vstart v) + i)); [lia|reflexivity].
Qed.
Lemma view_store_out p v (b : buffer T) i ch : in_range v p -> Z.of_nat (length (bdec b)) = signum p -> vmutable v = true ->
  (vcount v <= Z.of_nat i)%Z -> view_store v b i ch = UB /\ view_channel v b i = UB.
Proof.
  intros HR HL HM Hi. destruct (view_dec_ok p v b HR HL HM) as (s & E & Ls & _).
  unfold view_store, view_channel. rewrite E. cbn [bind]. replace (i <? length s) with false by (symmetry; apply Nat.ltb_ge; lia).
  split; [reflexivity|]. unfold rd. replace (nth_error s i) with (@None (decomposition T)); [reflexivity|]. symmetry. apply nth_error_None. lia.
Qed.

Lemma view_exchange {A : Arith T} p v (b b2 : buffer T) i j ch sf :
  accepted p -> in_range v p -> vmutable v = true -> (Z.of_nat i < vcount v)%Z ->
  bpar b = p -> Z.of_nat (length (bdec b)) = signum p -> Forall (has_layout p) (bdec b) ->
  bpar b2 = p -> Z.of_nat (length (bdec b2)) = signum p -> Forall (has_layout p) (bdec b2) ->
  nth_error (bdec b2) j = Some ch -> (0 <= sf <= steps p)%Z ->
  exists b' out out2 out', view_store v b i ch = Ok b' /\
    compose b sf = Ok (true, out) /\ compose b2 sf = Ok (true, out2) /\ compose b' sf = Ok (true, out') /\
    length out' = length out /\
    nth_error out' (Z.to_nat (vstart v) + i) = nth_error out2 j /\ nth_error out2 j <> None /\
    forall k, k <> Z.to_nat (vstart v) + i -> nth_error out' k = nth_error out k.
Proof.
  intros HA HR HM Hi E1 L1 Y1 E2 L2 Y2 Hj Hsf.
  destruct (view_store_ok p v b i ch HR L1 HM Hi) as (b' & ES & Ep & EL & EC & EF).
  rewrite Forall_forall in Y1, Y2.
  assert (N : nth_error (bdec b') (Z.to_nat (vstart v) + i) = Some ch).
  { unfold view_channel in EC. destruct (view_dec_ok p v b' HR) as (s & Es & Ls & Ns); auto; [lia|].
    rewrite Es in EC. cbn [bind] in EC. unfold rd in EC. rewrite <- Ns by lia. destruct (nth_error s i); congruence. }
  assert (Y' : forall c, In c (bdec b') -> has_layout p c).
  { intros c Hc. apply In_nth_error in Hc as (k & Hk). destruct (Nat.eq_dec k (Z.to_nat (vstart v) + i)) as [->|Hn].
    - assert (c = ch) by congruence. subst c. apply Y2. eapply nth_error_In; eauto.
    - rewrite EF in Hk by auto. apply Y1. eapply nth_error_In; eauto. }
  exists b', (map (com_of p (Z.to_nat sf)) (bdec b)), (map (com_of p (Z.to_nat sf)) (bdec b2)), (map (com_of p (Z.to_nat sf)) (bdec b')).
  split; [exact ES|]. split; [apply compose_ok; auto|]. split; [apply compose_ok; auto|].
  split; [apply compose_ok; auto; [congruence|lia]|]. rewrite !map_length. split; [auto|]. rewrite !nth_error_map, N, Hj.
  split; [reflexivity|]. split; [discriminate|]. intros k Hk. rewrite !nth_error_map, EF by auto. reflexivity.
Qed.
End V.
