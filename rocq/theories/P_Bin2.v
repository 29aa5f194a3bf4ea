(** * P_Bin2: sums, filters and levels in binary32 against rounded reals. *)
Require Import List Bool Arith ZArith QArith Qabs Qreals Lia Reals Lra.
Require Import ZifyBool.
Require Import Flocq.Core.Core Flocq.IEEE754.BinarySingleNaN.
Require Import Verif.M_Base Verif.M_Float Verif.M_Binary32 Verif.M_Wavelet Verif.M_Buffer Verif.M_Real.
Require Import Verif.S_Round Verif.P_Float Verif.P_Base Verif.P_Wavelet Verif.P_Buffer.
Require Import Verif.P_Sum Verif.P_Lin Verif.P_PR Verif.P_L2 Verif.P_Rec Verif.P_Rel Verif.P_Round Verif.P_Round2 Verif.P_Binary32.
Import ListNotations.
Open Scope R_scope.

(** binary32 without overflow, on the reals *)
Definition A32 : Arith R := {|
  a0 := 0;
  aadd := fun x y => r32 (x + y);
  amul := fun x y => r32 (x * y);
  aopp := Ropp;
  alit := fun q => B2R (f32_sqrt2 (f32_literal q));
  asqrt2 := fun x => x;
  ascale := fun _ _ x => x
|}.

Lemma u32_pos : 0 <= u32. Proof. apply Rlt_le, bp_pos. Qed.
Lemma eta32_pos : 0 <= eta32. Proof. apply Rlt_le, bp_pos. Qed.

Lemma A32_rounding : rounding u32 eta32 A32.
Proof.
  split; cbn [a0 aadd amul aopp alit asqrt2 A32]; auto.
  - intros. apply r32_total.
  - intros. apply r32_total.
  - intros q Hq. destruct (literal_val q Hq) as [_ H]. unfold rel in H.
    rewrite Rabs_mult, (Rabs_pos_eq (sqrt 2)) in H by apply sqrt_pos. exact H.
Qed.

(** X is finite and stands for x *)
Definition vrel (X : f32) (x : R) : Prop := is_finite X = true /\ B2R X = x.
Definition vle (e : Z) (X : f32) (x : R) : Prop := vrel X x /\ Rabs x <= bp e.

Lemma r32_le_fmt x k e : (0 <= k < 2 ^ 24)%Z -> (-149 <= e)%Z -> Rabs x <= IZR k * bp e -> Rabs (r32 x) <= IZR k * bp e.
Proof.
  intros Hk He H. apply abs_round_le_generic; auto.
  - apply FLT_exp_valid. reflexivity.
  - apply valid_rnd_round_mode.
  - apply generic_format_FLT. exists (Float radix2 k e); [reflexivity| |exact He].
    cbn [Fnum]. rewrite Z.abs_eq by lia. change (2 ^ 24)%Z with 16777216%Z in Hk. change (Zpower radix2 24) with 16777216%Z. lia.
Qed.

Lemma vrel_add X Y x y k e : vrel X x -> vrel Y y -> (0 <= k < 64)%Z -> (-149 <= e <= 121)%Z ->
  Rabs x <= IZR k * bp e -> Rabs y <= bp e ->
  vrel (Bplus mode_NE X Y) (r32 (x + y)) /\ Rabs (r32 (x + y)) <= IZR (k + 1) * bp e.
Proof.
  intros [FX VX] [FY VY] Hk He Hx Hy.
  assert (B : Rabs (r32 (x + y)) <= IZR (k + 1) * bp e).
  { apply r32_le_fmt; [change (2 ^ 24)%Z with 16777216%Z; lia|lia|].
    rewrite plus_IZR. eapply Rle_trans; [apply Rabs_triang|]. lra. }
  split; auto.
  pose proof (Bplus_correct 24 128 _ _ mode_NE X Y FX FY) as P. rewrite VX, VY in P.
  rewrite Rlt_bool_true in P.
  - destruct P as (P1 & P2 & _). split; auto.
  - eapply Rle_lt_trans; [exact B|]. apply Rle_lt_trans with (bp 6 * bp e).
    + apply Rmult_le_compat_r; [apply Rlt_le, bp_pos|]. change (bp 6) with 64. apply IZR_le. lia.
    + rewrite <- bpow_plus. apply bpow_lt. lia.
Qed.
Lemma vrel_mul X Y x y e : vrel X x -> vrel Y y -> (-149 <= e <= 127)%Z -> Rabs (x * y) <= bp e ->
  vle e (Bmult mode_NE X Y) (r32 (x * y)).
Proof.
  intros [FX VX] [FY VY] He Hxy.
  assert (B : Rabs (r32 (x * y)) <= bp e).
  { rewrite <- (Rmult_1_l (bp e)). apply r32_le_fmt; [lia|lia|]. lra. }
  split; auto.
  pose proof (Bmult_correct 24 128 _ _ mode_NE X Y) as P. rewrite VX, VY, FX, FY in P.
  rewrite Rlt_bool_true in P.
  - destruct P as (P1 & P2 & _). split; auto.
  - eapply Rle_lt_trans; [exact B|]. apply bpow_lt. lia.
Qed.

Lemma sum_rel e Ms ms : (-149 <= e <= 121)%Z -> Forall2 (vle e) Ms ms -> forall X x k,
  vrel X x -> (0 <= k)%Z -> (k + Z.of_nat (length ms) <= 64)%Z -> Rabs x <= IZR k * bp e ->
  vrel (fold_left (@aadd f32 binary32) Ms X) (fold_left (@aadd R A32) ms x) /\
  Rabs (fold_left (@aadd R A32) ms x) <= IZR (k + Z.of_nat (length ms)) * bp e.
Proof.
  intros He H. induction H as [|M m Ms ms [H1 H2] H IH]; intros X x k HX Hk HL Hx.
  - cbn [fold_left length]. rewrite Z.add_0_r. auto.
  - cbn [fold_left length] in *. 
    destruct (vrel_add X M x m k e HX H1 ltac:(lia) He Hx H2) as [P1 P2].
    replace (k + Z.of_nat (S (length ms)))%Z with (k + 1 + Z.of_nat (length ms))%Z by lia.
    apply IH; auto; lia.
Qed.

Lemma sum_rel0 e Ms ms : (-149 <= e <= 121)%Z -> Forall2 (vle e) Ms ms -> (length ms <= 64)%nat ->
  vle (e + 6) (fold_left (@aadd f32 binary32) Ms (@a0 f32 binary32)) (fold_left (@aadd R A32) ms (@a0 R A32)).
Proof.
  intros He H HL.
  destruct (sum_rel e Ms ms He H (@a0 f32 binary32) (@a0 R A32) 0) as [H1 H2].
  - split; reflexivity.
  - lia.
  - lia.
  - change (@a0 R A32) with 0. rewrite Rabs_R0. lra.
  - split; auto. eapply Rle_trans; [exact H2|]. rewrite Z.add_comm, bpow_plus. rewrite Rmult_comm. 
    replace (bp e * bp 6) with (bp 6 * bp e) by ring. rewrite (Rmult_comm (bp e)).
    apply Rmult_le_compat_r; [apply Rlt_le, bp_pos|]. change (bp 6) with 64. apply IZR_le. lia.
Qed.

(** taps *)
Definition vtap (X : f32) (x : R) : Prop := vrel X x /\ Rabs x <= 2.
Lemma vtap_0 : vtap (@a0 f32 binary32) (@a0 R A32).
Proof. split; [split; reflexivity|]. change (@a0 R A32) with 0. rewrite Rabs_R0. lra. Qed.
Lemma vtap_opp X x : vtap X x -> vtap (@aopp f32 binary32 X) (@aopp R A32 x).
Proof.
  intros [[F V] B]. cbn [aopp binary32 A32]. split; [split|].
  - rewrite is_finite_Bopp. auto.
  - rewrite B2R_Bopp, V. reflexivity.
  - rewrite Rabs_Ropp. auto.
Qed.
Lemma lo_vtap t : (1 <= t <= 10)%Z -> Forall2 vtap (@lo_r f32 binary32 t) (@lo_r R A32 t).
Proof.
  intros Ht. unfold lo_r. rewrite !map_map. apply Forall2_map_same. intros q Hq.
  assert (Hs : small_literals t = true).
  { pose proof literals as L. rewrite forallb_forall in L. apply L. simpl. lia. }
  unfold small_literals in Hs. rewrite forallb_forall in Hs. specialize (Hs q Hq).
  apply andb_true_iff in Hs as [H1 H2]. apply Qle_bool_iff, Qle_Rle in H1. apply Qle_bool_iff, Qle_Rle in H2.
  rewrite Q2R_abs in H1, H2.
  assert (R : 1 / 10 ^ 6 <= Rabs (Q2R q) <= 1).
  { split; [eapply Rle_trans; [|exact H1]; unfold Q2R; simpl; lra|eapply Rle_trans; [exact H2|]; unfold Q2R; simpl; lra]. }
  destruct (literal_val q R) as [F V]. cbn [asqrt2 alit binary32 A32]. split; [split; auto|].
  pose proof u32_small. apply rel_abs in V; [|lra]. rewrite Rabs_mult, (Rabs_pos_eq (sqrt 2)) in V by apply sqrt_pos.
  pose proof sqrt2_bounds. destruct V as [_ V]. eapply Rle_trans; [exact V|]. 
  assert (sqrt 2 * Rabs (Q2R q) <= 142 / 100) by nra.
  apply Rle_trans with ((1 + 3 * u32) * (142 / 100)); [apply Rmult_le_compat_l; lra|lra].
Qed.
Lemma hi_vtap t : (1 <= t <= 10)%Z -> Forall2 vtap (@hi_r f32 binary32 t) (@hi_r R A32 t).
Proof. intros Ht. apply (@qmf_rel f32 R binary32 A32 vtap vtap_opp). apply lo_vtap; auto. Qed.

Lemma tap_mul V v X x a : vtap V v -> vle a X x -> (-148 <= a <= 126)%Z ->
  vle (a + 1) (@amul f32 binary32 V X) (@amul R A32 v x) /\ vle (a + 1) (@amul f32 binary32 X V) (@amul R A32 x v).
Proof.
  intros [HV Hv] [HX Hx] Ha.
  assert (B : Rabs (v * x) <= bp (a + 1)).
  { rewrite Rabs_mult, bpow_plus, Rmult_comm. change (bp 1) with 2. apply Rmult_le_compat; auto using Rabs_pos. }
  split; apply vrel_mul; auto; try lia. rewrite Rmult_comm. auto.
Qed.

Lemma tap_l V v X x a : vtap V v -> vle a X x -> (-148 <= a <= 126)%Z -> vle (a + 1) (@amul f32 binary32 V X) (@amul R A32 v x).
Proof. intros H1 H2 H3. exact (proj1 (tap_mul V v X x a H1 H2 H3)). Qed.
Lemma tap_r V v X x a : vtap V v -> vle a X x -> (-148 <= a <= 126)%Z -> vle (a + 1) (@amul f32 binary32 X V) (@amul R A32 x v).
Proof. intros H1 H2 H3. exact (proj2 (tap_mul V v X x a H1 H2 H3)). Qed.

Lemma Forall2_map2_in {X Y X' Y'} (P : X -> Y -> Prop) (Q : X' -> Y' -> Prop) f g l l' :
  (forall x y, In y l' -> P x y -> Q (f x) (g y)) -> Forall2 P l l' -> Forall2 Q (map f l) (map g l').
Proof.
  intros H F. revert H. induction F; intros H'; simpl; auto. constructor.
  - apply H'; simpl; auto.
  - apply IHF. intros. apply H'; simpl; auto.
Qed.
Lemma fold_mapA {X T} (B : Arith T) (f : X -> T) l a : fold_left (fun acc e => @aadd T B acc (f e)) l a = fold_left (@aadd T B) (map f l) a.
Proof. revert a; induction l; simpl; auto. Qed.

Lemma rowdot_rel ROW row X x a : Forall2 (@er f32 R vtap) ROW row -> (length row <= 64)%nat -> (-148 <= a <= 120)%Z ->
  (forall e, In e row -> vle a (X (fst e)) (x (fst e))) ->
  vle (a + 7) (@rowdot f32 binary32 ROW X) (@rowdot R A32 row x).
Proof.
  intros HF HL Ha HX. unfold rowdot.
  rewrite (fold_mapA binary32 (fun e => @amul f32 binary32 (snd e) (X (fst e)))), (fold_mapA A32 (fun e => @amul R A32 (snd e) (x (fst e)))).
  replace (a + 7)%Z with (a + 1 + 6)%Z by lia. apply sum_rel0; [lia| |rewrite map_length; auto].
  apply (Forall2_map2_in (@er f32 R vtap)); auto.
  intros E e Hin [E1 E2]. rewrite E1. apply (tap_l (snd E) (snd e) (X (fst e)) (x (fst e)) a); auto; lia.
Qed.

Lemma rows_A32 t N r : (1 <= t <= 10)%Z -> (0 < N)%nat -> (r < 2 * N)%nat ->
  (length (srow_at (@dm R A32 t (2 * N)) r) <= 64)%nat /\
  forall e, In e (srow_at (@dm R A32 t (2 * N)) r) -> (fst e < 2 * N)%nat.
Proof.
  intros Ht HN Hr. split.
  - pose proof (@dm_rel R R A32 exactR (tapr u32) (tapr_0 u32 eta32 A32 A32_rounding) (tapr_opp u32 eta32 A32 A32_rounding) t (2 * N) r
      (lo_tapr u32 eta32 A32 A32_rounding t Ht)) as F.
    rewrite (Forall2_len F). destruct (row_abs t N r (fun _ => 0) Ht HN Hr) as [_ ->]. lia.
  - intros e He. destruct (@dm_swf R A32 t (2 * N) ltac:(lia)) as [L F].
    unfold srow_at in He. rewrite Forall_forall in F.
    assert (Hi : In (nth r (srow (@dm R A32 t (2 * N))) []) (srow (@dm R A32 t (2 * N)))) by (apply nth_In; rewrite L; exact Hr).
    specialize (F _ Hi). rewrite Forall_forall in F. exact (F e He).
Qed.
Lemma rowsT_A32 t N r : (1 <= t <= 10)%Z -> (Z.to_nat t <= N)%nat -> (r < 2 * N)%nat ->
  (length (srow_at (@dmT R A32 t (2 * N)) r) <= 64)%nat /\
  forall e, In e (srow_at (@dmT R A32 t (2 * N)) r) -> (fst e < 2 * N)%nat.
Proof.
  intros Ht HN Hr. split.
  - pose proof (@dmT_rel R R A32 exactR (tapr u32) (tapr_0 u32 eta32 A32 A32_rounding) (tapr_opp u32 eta32 A32 A32_rounding) t (2 * N) r
      (lo_tapr u32 eta32 A32 A32_rounding t Ht)) as F.
    rewrite (Forall2_len F). destruct (rowT_abs t N r (fun _ => 0) Ht HN Hr) as [_ ->]. lia.
  - intros e He. destruct (@dmT_swf R A32 t (2 * N) ltac:(lia)) as [L F].
    unfold srow_at in He. rewrite Forall_forall in F.
    assert (Hi : In (nth r (srow (@dmT R A32 t (2 * N))) []) (srow (@dmT R A32 t (2 * N)))) by (apply nth_In; rewrite L; exact Hr).
    specialize (F _ Hi). rewrite Forall_forall in F. exact (F e He).
Qed.

Lemma afilt_rel F f n X x i a : Forall2 vtap F f -> (length f <= 64)%nat -> (0 < n)%nat -> (-148 <= a <= 120)%Z ->
  (forall k, (k < n)%nat -> vle a (X k) (x k)) ->
  vle (a + 7) (@afilt f32 binary32 F n X i) (@afilt R A32 f n x i).
Proof.
  intros HF HL Hn Ha HX. unfold afilt, sumT. rewrite (Forall2_len HF).
  rewrite (fold_mapA binary32 (fun j => @amul f32 binary32 _ _)), (fold_mapA A32 (fun j => @amul R A32 _ _)).
  replace (a + 7)%Z with (a + 1 + 6)%Z by lia. apply sum_rel0; [lia| |rewrite map_length, seq_length; auto].
  apply Forall2_map_same. intros k _. apply tap_r; [|apply HX, Nat.mod_upper_bound; lia|lia].
  apply (Forall2_nth vtap); auto. apply vtap_0.
Qed.
Lemma sfilt_rel t N X Y x y c a : (1 <= t <= 10)%Z -> (0 < N)%nat -> (-148 <= a <= 120)%Z ->
  (forall k, (k < N)%nat -> vle a (X k) (x k)) -> (forall k, (k < N)%nat -> vle a (Y k) (y k)) ->
  vle (a + 7) (@sfilt f32 binary32 (rev (@lo_r f32 binary32 t)) (rev (@hi_r f32 binary32 t)) N X Y c)
              (@sfilt R A32 (rev (@lo_r R A32 t)) (rev (@hi_r R A32 t)) N x y c).
Proof.
  intros Ht HN Ha HX HY.
  rewrite !(sfilt_list _ _ _ _ _ _ _ (Z.to_nat t)) by (rewrite rev_length; apply lo_r_length; auto).
  replace (a + 7)%Z with (a + 1 + 6)%Z by lia. apply sum_rel0; [lia| |].
  - apply (Forall2_flat_map eq).
    + intros jj ? <-. cbv zeta. constructor; [|constructor; [|constructor]].
      * apply tap_l; [|apply HX, Nat.mod_upper_bound; lia|lia].
        apply (Forall2_nth vtap); [apply Forall2_rev, lo_vtap; auto|apply vtap_0].
      * apply tap_l; [|apply HY, Nat.mod_upper_bound; lia|lia].
        apply (Forall2_nth vtap); [apply Forall2_rev, hi_vtap; auto|apply vtap_0].
    + clear. induction (seq 0 (Z.to_nat t)); auto.
  - cbv zeta. rewrite flat_pairs_length, seq_length. lia.
Qed.

(** ** one level *)
Section Level.
Variable g : geom.
Hypothesis G : gwf g.

Lemma vle_weak a b X x : (a <= b)%Z -> vle a X x -> vle b X x.
Proof. intros H [H1 H2]. split; auto. eapply Rle_trans; [exact H2|]. apply bpow_le; auto. Qed.

Lemma ws_1' s : gdim g = 1%nat -> ws g s = 1%nat.
Proof. intros E. unfold ws. rewrite E. reflexivity. Qed.

Lemma ANA_rel s Y y a : (s < gK g)%nat -> (-148 <= a <= 113)%Z ->
  (forall i j, (i < hs g s)%nat -> (j < ws g s)%nat -> vle a (Y i j) (y i j)) ->
  forall i j, (i < hs g s)%nat -> (j < ws g s)%nat -> vle (a + 14) (@ANA f32 binary32 g s Y i j) (@ANA R A32 g s y i j).
Proof.
  intros Hs Ha HY i j Hi Hj. pose proof (hs_step g s G Hs) as (Hh & Hh2). pose proof (gt_range g s G Hs) as Ht.
  unfold ANA. destruct (gdim_cases g G) as [E|E]; rewrite E; cbn [Nat.eqb].
  - assert (W : ws g s = 1%nat) by (apply ws_1'; auto).
    apply (vle_weak (a + 7)); [lia|].
    destruct (Nat.ltb i (hs g (S s))); apply afilt_rel; try lia; auto using lo_vtap, hi_vtap;
      try (rewrite ?hi_r_length, lo_r_length by auto; lia); intros k Hk; apply HY; lia.
  - pose proof (ws_step g s G E Hs) as (Hw & Hw2). unfold sep.
    rewrite Hh, Hw in *. 
    destruct (rows_A32 (gt g) (hs g (S s)) i Ht ltac:(lia) ltac:(lia)) as [L1 I1].
    destruct (rows_A32 (gt g) (ws g (S s)) j Ht ltac:(lia) ltac:(lia)) as [L2 I2].
    replace (a + 14)%Z with (a + 7 + 7)%Z by lia.
    apply rowdot_rel; auto; try lia.
    + apply (@dm_rel f32 R binary32 A32 vtap vtap_0 vtap_opp). apply lo_vtap; auto.
    + intros e He. apply rowdot_rel; auto; try lia.
      apply (@dm_rel f32 R binary32 A32 vtap vtap_0 vtap_opp). apply lo_vtap; auto.
Qed.
Lemma SYN_rel s Y y a : (s < gK g)%nat -> (-148 <= a <= 113)%Z ->
  (forall i j, (i < hs g s)%nat -> (j < ws g s)%nat -> vle a (Y i j) (y i j)) ->
  forall i j, (i < hs g s)%nat -> (j < ws g s)%nat -> vle (a + 14) (@SYN f32 binary32 g s Y i j) (@SYN R A32 g s y i j).
Proof.
  intros Hs Ha HY i j Hi Hj. pose proof (hs_step g s G Hs) as (Hh & Hh2). pose proof (gt_range g s G Hs) as Ht.
  unfold SYN. destruct (gdim_cases g G) as [E|E]; rewrite E; cbn [Nat.eqb].
  - assert (W : ws g s = 1%nat) by (apply ws_1'; auto).
    apply (vle_weak (a + 7)); [lia|]. apply sfilt_rel; try lia; auto; intros k Hk; apply HY; lia.
  - pose proof (ws_step g s G E Hs) as (Hw & Hw2). unfold sep.
    rewrite Hh, Hw in *. 
    destruct (rowsT_A32 (gt g) (hs g (S s)) i Ht ltac:(lia) ltac:(lia)) as [L1 I1].
    destruct (rowsT_A32 (gt g) (ws g (S s)) j Ht ltac:(lia) ltac:(lia)) as [L2 I2].
    replace (a + 14)%Z with (a + 7 + 7)%Z by lia.
    apply rowdot_rel; auto; try lia.
    + apply (@dmT_rel f32 R binary32 A32 vtap vtap_0 vtap_opp). apply lo_vtap; auto.
    + intros e He. apply rowdot_rel; auto; try lia.
      apply (@dmT_rel f32 R binary32 A32 vtap vtap_0 vtap_opp). apply lo_vtap; auto.
Qed.
End Level.
