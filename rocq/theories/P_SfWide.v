(** * P_SfWide: matrices of any size whose gaps and exponent jumps are small *)
Require Import List ZArith Bool Lia ZifyBool.
Import ListNotations.
From Verif Require Import M_Base P_Base M_Archive P_Archive M_Sf S_Sf P_Sf M_SfCodec S_SfCodec S_SfWide P_SfTable P_SfMerge P_SfFirst P_SfCodec P_SfRound P_SfSmall P_SfValue P_SfCases.
From Verif Require Import P_SfLens.
Open Scope Z_scope.

Lemma lower0_double r : (1 <= r < 16)%nat -> lower last0 (S r) <= 2 * lower last0 r.
Proof.
  intros H. assert (F : forallb (fun r => lower last0 (S r) <=? 2 * lower last0 r) (seq 1 15) = true) by (vm_compute; reflexivity).
  rewrite forallb_forall in F. specialize (F r ltac:(apply in_seq; lia)). lia.
Qed.
Lemma sum_bound V : forall values, Forall (fun v => 0 <= v <= V) values -> sum values <= V * Z.of_nat (length values).
Proof. induction 1 as [|v l Hv Hl IH]; unfold sum in *; cbn [fold_right length]; lia. Qed.

(** values up to V *)
Lemma usable_up_to last V N values : small_table last -> qty_ok last -> (0 < length last)%nat -> nth_error last 0 = Some 0 ->
  lower last 1 = 1 -> (forall r, (1 <= r < length last)%nat -> lower last (S r) <= 2 * lower last r) ->
  values <> [] -> V <= List.last last 0 -> Forall (fun v => 0 <= v <= V) values ->
  Z.of_nat (length values) < 2 ^ 31 -> sum values + Z.of_nat (length values) <= N -> N * (2 * (V + 1)) <= 2 ^ 31 ->
  usable code_lens last values.
Proof.
  intros Hst Hq Hl H0 HL1 HD Hne HV Hv H31 Hs HN h Hh.
  assert (Hv' : Forall (fun v => 0 <= v <= List.last last 0) values) by (eapply Forall_impl; [|exact Hv]; cbn beta; intros; lia).
  destruct (histogram_setting last values h Hst Hl H0 Hne H31 Hv' Hh) as (Se & W1 & _ & (v & Iv & Lv)).
  apply code_lens_ok; auto.
  pose proof (se_used _ _ _ _ Se) as Hu. rewrite Forall_forall in Hv. specialize (Hv v Iv).
  destruct Hst as (_ & S2 & _ & S4).
  assert (X : 0 <= lower last (pools_used h) <= 2 * (V + 1)).
  { split; [apply (lower_bound last S4); lia|].
    destruct (Nat.eq_dec (pools_used h) 1) as [->|N1]; [lia|].
    pose proof (HD (pools_used h - 1)%nat ltac:(lia)) as D.
    replace (S (pools_used h - 1)) with (pools_used h) in D by lia. lia. }
  assert (Wn : 0 <= weight last h (pools_used h)).
  { pose proof (weight_group last S2 S4 h 0 (se_h _ _ _ _ Se) (pools_used h) ltac:(pose proof (se_hlen _ _ _ _ Se); lia) ltac:(lia)) as Y.
    cbn [lower] in Y. change (weight last h 0) with 0 in Y. lia. }
  apply Z.le_trans with (N * (2 * (V + 1))); [|exact HN].
  apply Z.mul_le_mono_nonneg; lia.
Qed.

Lemma exp_jump_bound a b J : 0 <= a <= 255 -> 0 <= b <= 255 -> Z.abs (a - b) <= J -> 0 <= exp_jump a b <= 2 * J.
Proof.
  intros Ha Hb HJ. unfold exp_jump. destruct (Z.leb_spec a b).
  - destruct (Z.ltb_spec a (b - a)); rewrite w8_id; lia.
  - destruct (Z.ltb_spec (255 - a) (a - b)); rewrite w8_id; lia.
Qed.

Lemma bf16_exponent fl w e s f : 7 <= fl <= 23 -> to_bf16 fl w = Ok (e, s, f) -> exponent w <= e <= exponent w + 1 /\ 0 <= exponent w <= 255.
Proof.
  intros Hfl H. pose proof (word_bits w) as Hb. unfold to_bf16 in H. destruct (is_zero w); [discriminate|].
  destruct (fields (wbits w) fl Hb Hfl) as (F1 & _ & _). rewrite F1 in H. rewrite pow2i_ok in H by lia. cbn [bind] in H.
  change (wbits w mod 2 ^ 31 / 2 ^ 23) with (exponent w) in H.
  assert (E : 0 <= exponent w <= 255).
  { unfold exponent. pose proof (Z.mod_pos_bound (wbits w) (2 ^ 31) ltac:(lia)). split; [apply Z.div_pos; lia|].
    apply Z.lt_succ_r. apply Z.div_lt_upper_bound; lia. }
  split; [|exact E].
  destruct ((fl <? 23) && _); [destruct (_ + 1 =? _); [destruct (exponent w <? 255)|]|]; inversion H; subst; lia.
Qed.

Lemma wide_timeline fl R J : 7 <= fl <= 23 -> 0 <= J -> forall idx vals tl lo le le0, tl_rel fl lo le idx vals tl ->
  0 <= le <= 255 -> le0 <= le <= le0 + 1 -> runs_up_to R lo idx -> jumps_up_to J le0 (map exponent vals) ->
  Forall (fun v => v <= R) (map e_zeros tl) /\ Forall (fun v => 0 <= v <= 2 * (J + 1)) (map e_exp tl).
Proof.
  intros Hfl HJ. induction idx as [|i idx IH]; intros [|v vals] [|en tl] lo le le0 Ht Hle Hle0 Hr Hj; cbn [tl_rel] in Ht; try contradiction.
  - split; constructor.
  - destruct Ht as (x & s & f & Eb & Hx & _ & _ & -> & _ & Ht). cbn [runs_up_to] in Hr. cbn [map jumps_up_to] in Hj.
    destruct (bf16_exponent fl v _ _ _ Hfl Eb) as (Ex & _). destruct Hr as (R1 & R2), Hj as (J1 & J2). unfold byte in Hx.
    destruct (IH vals tl i x (exponent v) Ht ltac:(lia) Ex R2 J2) as (I1 & I2).
    split; cbn [map e_zeros e_exp]; constructor; auto; try lia. apply exp_jump_bound; lia.
Qed.

Theorem wide_usable o tl used R J : sparse o -> 0 <= R -> 0 <= J ->
  runs_up_to R (-1) (o_indexes o) -> (R + 1) * (o_rows o * o_cols o) <= 2 ^ 30 ->
  jumps_up_to J 127 (map exponent (o_values o)) -> Z.of_nat (length (o_values o)) * (J + 2) ^ 2 <= 2 ^ 28 ->
  timeline (o_frag o) None 127 0 (o_indexes o) (o_values o) = Ok (tl, used) ->
  usable code_lens last0 (map e_exp tl) /\ usable code_lens last1 (map e_zeros tl).
Proof.
  intros [Hfr Hro Hco Hsz Hne Hlen Hidx Hnz] HR HJ Hruns HN Hjumps HT E.
  assert (Hfl : 7 <= o_frag o <= 23) by lia.
  destruct (timeline_ok (o_frag o) (o_rows o * o_cols o) Hfl ltac:(lia) (o_indexes o) (o_values o) (-1) None 127 0)
    as (tl' & used' & E' & Rl & _); auto; try lia.
  assert (X : Ok (tl', used') = Ok (tl, used)) by congruence. inversion X; subst tl' used'. clear X E'.
  pose proof (tl_rel_len _ _ _ _ _ _ Rl) as Ltl.
  assert (Hi : o_indexes o <> []) by (destruct (o_values o); [congruence|]; destruct (o_indexes o); [discriminate|congruence]).
  destruct (tl_zeros_sum _ _ _ _ _ _ _ Rl Hidx Hi) as (Z1 & Z2).
  destruct (wide_timeline (o_frag o) R J Hfl HJ _ _ _ _ _ 127 Rl ltac:(lia) ltac:(lia) Hruns Hjumps) as (G1 & G2).
  assert (Tne : tl <> []) by (intros X; subst tl; cbn [length] in Ltl; destruct (o_indexes o); [congruence|discriminate]).
  assert (Tn : forall A (f : entry -> A), map f tl <> []) by (intros; destruct tl; [congruence|discriminate]).
  pose proof (sum_nonneg _ Z2) as Sn.
  assert (L1 : 1 <= Z.of_nat (length tl)) by (destruct tl; [congruence|cbn [length]; lia]).
  assert (N1 : 1 <= o_rows o * o_cols o) by nia.
  assert (LT : Z.of_nat (length tl) = Z.of_nat (length (o_values o))) by lia.
  replace ((J + 2) ^ 2) with ((J + 2) * (J + 2)) in HT by (rewrite Z.pow_2_r; reflexivity).
  pose proof (tl_rel_range _ _ _ _ _ _ Rl ltac:(unfold byte; lia) ltac:(lia)) as Rg.
  split.
  - set (V := Z.min 256 (2 * (J + 1))).
    assert (GV : Forall (fun v => 0 <= v <= V) (map e_exp tl)).
    { rewrite Forall_forall in *. intros v Hv. specialize (G2 v Hv). apply in_map_iff in Hv as (en & <- & Hen). specialize (Rg en Hen). unfold V. lia. }
    apply (usable_up_to last0 V (Z.of_nat (length tl) * (V + 1))); auto using small0, qty0.
    + vm_compute; lia.
    + intros r Hr. apply lower0_double. change (length last0) with 16%nat in Hr. lia.
    + replace (List.last last0 0) with 256 by (vm_compute; reflexivity). unfold V. lia.
    + rewrite map_length. lia.
    + rewrite map_length. pose proof (sum_bound V _ GV) as SB. rewrite map_length in SB. lia.
    + rewrite LT. set (t := Z.of_nat (length (o_values o))) in *.
      assert (V + 1 <= 2 * (J + 2)) by (unfold V; lia). assert (0 <= V) by (unfold V; lia). nia.
  - apply (usable_up_to last1 R (o_rows o * o_cols o)); auto using small1, qty1.
    + vm_compute; lia.
    + intros r Hr. apply lower1_double. rewrite last1_len in Hr. lia.
    + replace (List.last last1 0) with (2 ^ 31) by (vm_compute; reflexivity). nia.
    + rewrite Forall_forall in *. intros v Hv. specialize (G1 v Hv). specialize (Z2 v Hv). lia.
    + rewrite map_length. lia.
    + rewrite map_length. lia.
    + lia.
Qed.

Theorem wide_round_trip cap cap' o R J :
  sparse o -> 0 <= R -> 0 <= J ->
  runs_up_to R (-1) (o_indexes o) -> (R + 1) * (o_rows o * o_cols o) <= 2 ^ 30 ->
  jumps_up_to J 127 (map exponent (o_values o)) -> Z.of_nat (length (o_values o)) * (J + 2) ^ 2 <= 2 ^ 28 ->
  (4 * (74 + 3 * length (o_values o)) <= cap)%nat ->
  exists blob, compress cap o = Ok (Some blob) /\ (length blob <= 4 * (74 + 3 * length (o_values o)))%nat /\
    Forall is_byte blob /\
    ((length blob <= cap')%nat -> (length (o_values o) <= cap')%nat ->
     exists im, decompress (new_impl cap') blob = Ok (Some (read_back o), im)).
Proof.
  intros Hs HR HJ H1 H2 H3 H4 Hc. destruct (timeline_exists o Hs) as (tl & used & E).
  destruct (wide_usable o tl used R J Hs HR HJ H1 H2 H3 H4 E) as (U0 & U1).
  destruct (codec_ok code_lens cap (length (o_values o)) o tl used Hs ltac:(lia) ltac:(lia) Hc E U0 U1) as (blob & C1 & C2 & C3 & _).
  exists blob. split; [exact C1|]. split; [exact C2|]. split.
  { eapply Forall_impl; [|apply C3]. intros b Hb. exact Hb. }
  intros G1 G2. destruct (codec_ok code_lens cap cap' o tl used Hs ltac:(lia) G2 Hc E U0 U1) as (blob' & C1' & _ & _ & C4).
  assert (blob' = blob) by (unfold compress in C1; congruence). subst blob'.
  destruct (C4 G1) as (im & D). exists im. rewrite D. unfold read_back. rewrite (decoded_kept o Hs). reflexivity.
Qed.

(** deciders, for cases *)
Fixpoint risingb (lo n : Z) (idx : list Z) : bool := match idx with [] => true | i :: t => (lo <? i) && (i <? n) && risingb i n t end.
Fixpoint runsb (R lo : Z) (idx : list Z) : bool := match idx with [] => true | i :: t => (i - lo - 1 <=? R) && runsb R i t end.
Fixpoint jumpsb (J e0 : Z) (l : list Z) : bool := match l with [] => true | e :: t => (Z.abs (e0 - e) <=? J) && jumpsb J e t end.
Lemma risingb_ok n : forall idx lo, risingb lo n idx = true -> rising lo n idx.
Proof. induction idx as [|i t IH]; intros lo H; [exact I|]. cbn [risingb rising] in *. split; [lia|]. apply IH. destruct (risingb i n t); [reflexivity|lia]. Qed.
Lemma runsb_ok R : forall idx lo, runsb R lo idx = true -> runs_up_to R lo idx.
Proof. induction idx as [|i t IH]; intros lo H; [exact I|]. cbn [runsb runs_up_to] in *. split; [lia|]. apply IH. destruct (runsb R i t); [reflexivity|lia]. Qed.
Lemma jumpsb_ok J : forall l e0, jumpsb J e0 l = true -> jumps_up_to J e0 l.
Proof. induction l as [|e t IH]; intros e0 H; [exact I|]. cbn [jumpsb jumps_up_to] in *. split; [lia|]. apply IH. destruct (jumpsb J e t); [reflexivity|lia]. Qed.
