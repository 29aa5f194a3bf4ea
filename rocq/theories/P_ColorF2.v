(** * P_ColorF2: HSLToRGB in binary32 against the exact formula *)
Require Import ZArith QArith Qreals Bool Reals Lra Lia List.
Require Import Flocq.Core.Core Flocq.IEEE754.BinarySingleNaN.
Require Import Verif.M_Float Verif.M_Binary32 Verif.M_Color Verif.M_ColorF Verif.P_Float Verif.P_Binary32 Verif.P_ColorF.
Import ListNotations.
Open Scope R_scope.
Local Opaque u32.

Lemma lt_cases x y : is_finite x = true -> is_finite y = true ->
  (f32_lt x y = true /\ B2R x < B2R y) \/ (f32_lt x y = false /\ B2R y <= B2R x).
Proof. intros Fx Fy. rewrite f32_lt_val by auto. destruct (Rlt_bool_spec (B2R x) (B2R y)); auto. Qed.

Lemma component_near t1 t2 t T1 T2 : is_finite t1 = true -> is_finite t2 = true -> is_finite t = true ->
  near (8 * u32) (B2R t1) T1 -> near (12 * u32) (B2R t2) T2 -> 0 <= B2R t <= 1 ->
  - 1 / 100 <= T2 <= 101 / 100 -> - 1 / 100 <= T1 <= 101 / 100 -> 0 <= T1 - T2 <= 101 / 100 ->
  is_finite (component32 t1 t2 t) = true /\
  near (61 * u32) (B2R (component32 t1 t2 t)) (T2 + (T1 - T2) * hump (B2R t)).
Proof.
  intros F1 F2 Ft N1 N2 Ht HT2 HT1 HD. pose proof u32_range as U.
  destruct sixth_val as (Fa & Na). destruct two_thirds_val as (Fb & Nb). destruct lit_half as (Fh & Vh).
  destruct (int_val 6 ltac:(lia)) as (F6 & V6).
  set (a := f32_div (f32_of_int 1) (f32_of_int 6)) in *. set (b := f32_div (f32_of_int 2) (f32_of_int 3)) in *.
  unfold component32. fold a b.
  (* the difference *)
  assert (ND : is_finite (f32_sub t1 t2) = true /\ near (22 * u32) (B2R (f32_sub t1 t2)) (T1 - T2)).
  { destruct (sub_val t1 t2 F1 F2) as (F & V); [unfold near in *; lra|]. split; [auto|]. rewrite V.
    pose proof (rb1 (B2R t1 - B2R t2) ltac:(unfold near in *; lra)). unfold near in *; lra. }
  destruct ND as (Fd & Nd). set (d := f32_sub t1 t2) in *.
  assert (Q : forall e k, near e k (hump (B2R t)) -> 0 <= e -> near (101 / 100 * e) ((T1 - T2) * k) ((T1 - T2) * hump (B2R t))).
  { intros e k Hk He. pose proof (near_scale (T1 - T2) e _ _ Hk ltac:(lra)) as Hs.
    assert ((T1 - T2) * e <= 101 / 100 * e) by (apply Rmult_le_compat_r; lra). unfold near in *. lra. }
  destruct (lt_cases t a Ft Fa) as [(-> & L1)|(-> & L1)].
  { destruct (mul_val d (f32_of_int 6) Fd F6) as (F3 & V3); [rewrite V6; unfold near in *; lra|]. rewrite V6 in V3.
    set (x := f32_mul d (f32_of_int 6)) in *.
    pose proof (rb3 (B2R d * 6) ltac:(unfold near in *; lra)) as R3. rewrite <- V3 in R3.
    assert (N3 : near (140 * u32) (B2R x) (6 * (T1 - T2))) by (unfold near in *; lra).
    pose proof (near_mult (B2R x) (B2R t) (6 * (T1 - T2)) (B2R t) (140 * u32) 0 7 (17 / 100) N3
      ltac:(unfold near; lra) ltac:(lra) ltac:(unfold near in *; lra)) as N4.
    assert (B4 : - (110 / 100) <= B2R x * B2R t <= 110 / 100).
    { assert (0 <= 6 * (T1 - T2) * B2R t <= (606 / 100) * (17 / 100)).
      { split; [apply Rmult_le_pos; lra|apply Rmult_le_compat; unfold near in *; lra]. }
      unfold near in *. lra. }
    destruct (mul_val x t F3 Ft) as (F5 & V5); [lra|].
    pose proof (rb1 (B2R x * B2R t) ltac:(lra)) as R5. rewrite <- V5 in R5. set (y := f32_mul x t) in *.
    destruct (add_val t2 y F2 F5) as (F6' & V6'); [unfold near in *; lra|].
    pose proof (Q (7 * u32) (6 * B2R t)) as QQ.
    assert (HQ : near (7 * u32) (6 * B2R t) (hump (B2R t))).
    { destruct (Rle_lt_dec (B2R t) (1 / 6)).
      - replace (hump (B2R t)) with (6 * B2R t) by hump. unfold near. lra.
      - replace (hump (B2R t)) with 1 by (unfold near in *; hump). unfold near in *. lra. }
    specialize (QQ HQ ltac:(lra)).
    assert (Bs : - 2 <= B2R t2 + B2R y <= 4).
    { unfold near in *. lra. }
    split; [auto|]. rewrite V6'.
    assert (Bt : - 2 <= B2R t2 + B2R y <= 2).
    { pose proof (hump_range (B2R t)) as HR.
      assert (0 <= (T1 - T2) * hump (B2R t) <= T1 - T2).
      { split; [apply Rmult_le_pos; lra|]. rewrite <- (Rmult_1_r (T1 - T2)) at 2. apply Rmult_le_compat_l; lra. }
      unfold near in *. lra. }
    pose proof (rb1 (B2R t2 + B2R y) Bt) as R6. unfold near in *. lra. }
  destruct (lt_cases t (f32_of_literal (1 # 2)) Ft Fh) as [(-> & L2)|(-> & L2)]; rewrite Vh in L2.
  { split; [auto|]. 
    assert (HQ : near (7 * u32) 1 (hump (B2R t))) by (unfold near in *; hump).
    pose proof (Q _ _ HQ ltac:(lra)). unfold near in *. lra. }
  destruct (lt_cases t b Ft Fb) as [(-> & L3)|(-> & L3)].
  { destruct (sub_val b t Fb Ft) as (F3 & V3); [unfold near in *; lra|].
    pose proof (rbm (B2R b - B2R t) ltac:(unfold near in *; lra)) as R3. rewrite <- V3 in R3. set (x := f32_sub b t) in *.
    assert (N3 : near (3 / 2 * u32) (B2R x) (2 / 3 - B2R t)) by (unfold near in *; lra).
    pose proof (near_mult (B2R d) (B2R x) (T1 - T2) (2 / 3 - B2R t) (22 * u32) (3 / 2 * u32) (101 / 100) (17 / 100) Nd N3
      ltac:(lra) ltac:(unfold near in *; lra)) as N4.
    assert (B4 : - (1 / 100) <= (T1 - T2) * (2 / 3 - B2R t) <= 18 / 100).
    { destruct (Rle_lt_dec (B2R t) (2 / 3)).
      - split; [pose proof (Rmult_le_pos (T1 - T2) (2 / 3 - B2R t)); lra|].
        apply Rle_trans with (101 / 100 * (17 / 100)); [apply Rmult_le_compat; lra|lra].
      - assert (0 <= (T1 - T2) * (B2R t - 2 / 3) <= 101 / 100 * u32).
        { split; [apply Rmult_le_pos; lra|apply Rmult_le_compat; unfold near in *; lra]. }
        lra. }
    destruct (mul_val d x Fd F3) as (F5 & V5); [unfold near in *; lra|].
    pose proof (rbm (B2R d * B2R x) ltac:(unfold near in *; lra)) as R5. rewrite <- V5 in R5. set (y := f32_mul d x) in *.
    destruct (mul_val y (f32_of_int 6) F5 F6) as (F7 & V7); [rewrite V6; unfold near in *; lra|]. rewrite V6 in V7.
    pose proof (rb1 (B2R y * 6) ltac:(unfold near in *; lra)) as R7. rewrite <- V7 in R7. set (z := f32_mul y (f32_of_int 6)) in *.
    pose proof (Q (7 * u32) (6 * (2 / 3 - B2R t))) as QQ.
    assert (HQ : near (7 * u32) (6 * (2 / 3 - B2R t)) (hump (B2R t))).
    { destruct (Rle_lt_dec (B2R t) (2 / 3)).
      - replace (hump (B2R t)) with (6 * (2 / 3 - B2R t)) by hump. unfold near. lra.
      - rewrite hump_out by lra. unfold near in *. lra. }
    specialize (QQ HQ ltac:(lra)).
    destruct (add_val t2 z F2 F7) as (F8 & V8); [unfold near in *; lra|]. split; [auto|]. rewrite V8.
    assert (Bt : - 2 <= B2R t2 + B2R z <= 2).
    { pose proof (hump_range (B2R t)) as HR.
      assert (0 <= (T1 - T2) * hump (B2R t) <= T1 - T2).
      { split; [apply Rmult_le_pos; lra|]. rewrite <- (Rmult_1_r (T1 - T2)) at 2. apply Rmult_le_compat_l; lra. }
      unfold near in *. lra. }
    pose proof (rb1 (B2R t2 + B2R z) Bt) as R8. unfold near in *. lra. }
  split; [auto|].
  assert (HQ : near (7 * u32) 0 (hump (B2R t))) by (unfold near in *; hump).
  pose proof (Q _ _ HQ ltac:(lra)). unfold near in *. lra.
Qed.

(** temp1 and temp2 *)
Definition top (s l : R) : R := if Rlt_dec l (1 / 2) then l * (1 + s) else l + s - l * s.
Definition bottom (s l : R) : R := 2 * l - top s l.
Lemma top_bounds s l : 0 <= s <= 1001 / 1000 -> 0 <= l <= 1 ->
  - 1 / 100 <= bottom s l <= 101 / 100 /\ - 1 / 100 <= top s l <= 101 / 100 /\ 0 <= top s l - bottom s l <= 101 / 100.
Proof.
  intros Hs Hl. unfold bottom, top.
  pose proof (Rmult_le_pos l s ltac:(lra) ltac:(lra)). pose proof (Rmult_le_pos (1 - l) s ltac:(lra) ltac:(lra)).
  assert (l * s <= l * (1001 / 1000)) by (apply Rmult_le_compat_l; lra).
  assert ((1 - l) * s <= (1 - l) * (1001 / 1000)) by (apply Rmult_le_compat_l; lra).
  destruct (Rlt_dec l (1 / 2)); lra.
Qed.

Definition temp1_of (s l : f32) : f32 :=
  if lt_half l then f32_mul l (f32_add (f32_of_int 1) s) else f32_sub (f32_add l s) (f32_mul l s).
Lemma temp1_near s l : is_finite s = true -> is_finite l = true -> 0 <= B2R s <= 1001 / 1000 -> 0 <= B2R l <= 1 ->
  is_finite (temp1_of s l) = true /\ near (8 * u32) (B2R (temp1_of s l)) (top (B2R s) (B2R l)).
Proof.
  intros Fs Fl Hs Hl. pose proof u32_range as U. destruct (int_val 1 ltac:(lia)) as (F1 & V1).
  pose proof (Rmult_le_pos (B2R l) (B2R s) ltac:(lra) ltac:(lra)) as P1.
  pose proof (Rmult_le_pos (1 - B2R l) (B2R s) ltac:(lra) ltac:(lra)) as P2.
  assert (P3 : B2R l * B2R s <= B2R l * (1001 / 1000)) by (apply Rmult_le_compat_l; lra).
  assert (P4 : (1 - B2R l) * B2R s <= (1 - B2R l) * (1001 / 1000)) by (apply Rmult_le_compat_l; lra).
  unfold temp1_of, top. rewrite lt_half_val by auto.
  destruct (Rlt_bool_spec (B2R l) (1 / 2)) as [L|L]; destruct (Rlt_dec (B2R l) (1 / 2)); try lra.
  - destruct (add_val (f32_of_int 1) s F1 Fs) as (F2 & V2); [rewrite V1; lra|]. rewrite V1 in V2.
    pose proof (rb2 (1 + B2R s) ltac:(lra)) as R2. rewrite <- V2 in R2. set (a := f32_add (f32_of_int 1) s) in *.
    pose proof (near_scale (B2R l) _ _ _ R2 ltac:(lra)) as N.
    assert (B2R l * (4 * u32) <= 1 / 2 * (4 * u32)) by (apply Rmult_le_compat_r; lra).
    destruct (mul_val l a Fl F2) as (F3 & V3); [unfold near in *; lra|]. split; [auto|]. rewrite V3.
    pose proof (rb1 (B2R l * B2R a) ltac:(unfold near in *; lra)). unfold near in *. lra.
  - destruct (add_val l s Fl Fs) as (F2 & V2); [lra|]. pose proof (rb2 (B2R l + B2R s) ltac:(lra)) as R2.
    destruct (mul_val l s Fl Fs) as (F3 & V3); [lra|]. pose proof (rb1 (B2R l * B2R s) ltac:(lra)) as R3.
    rewrite <- V2 in R2. rewrite <- V3 in R3. set (a := f32_add l s) in *. set (b := f32_mul l s) in *.
    destruct (sub_val a b F2 F3) as (F4 & V4); [unfold near in *; lra|]. split; [auto|]. rewrite V4.
    pose proof (rb1 (B2R a - B2R b) ltac:(unfold near in *; lra)). unfold near in *. lra.
Qed.

Lemma back_near h s l : is_finite h = true -> is_finite s = true -> is_finite l = true ->
  0 <= B2R h <= 1 -> 0 <= B2R s <= 1001 / 1000 -> 0 <= B2R l <= 1 -> lt_0001 (f32_abs s) = false ->
  let T1 := top (B2R s) (B2R l) in let T2 := bottom (B2R s) (B2R l) in
  let '(r, g, b) := hsl_to_rgb32 h s l in
  (is_finite r = true /\ near (90 * u32) (B2R r) (T2 + (T1 - T2) * wave (B2R h + 1 / 3))) /\
  (is_finite g = true /\ near (90 * u32) (B2R g) (T2 + (T1 - T2) * wave (B2R h))) /\
  (is_finite b = true /\ near (90 * u32) (B2R b) (T2 + (T1 - T2) * wave (B2R h - 1 / 3))).
Proof.
  intros Fh Fs Fl Hh Hs Hl G T1 T2. pose proof u32_range as U.
  destruct (int_val 0 ltac:(lia)) as (F0 & V0). destruct (int_val 1 ltac:(lia)) as (F1 & V1). destruct (int_val 2 ltac:(lia)) as (F2 & V2).
  destruct third_val as (F3 & N3).
  unfold hsl_to_rgb32. rewrite G. cbv zeta.
  change (if lt_half l then f32_mul l (f32_add (f32_of_int 1) s) else f32_sub (f32_add l s) (f32_mul l s)) with (temp1_of s l).
  destruct (temp1_near s l Fs Fl Hs Hl) as (Ft1 & Nt1). fold T1 in Nt1. set (t1 := temp1_of s l) in *.
  destruct (top_bounds (B2R s) (B2R l) Hs Hl) as (B2 & B1 & B3). fold T1 T2 in B1, B2, B3.
  assert (Nt2 : is_finite (f32_sub (f32_mul (f32_of_int 2) l) t1) = true /\ near (12 * u32) (B2R (f32_sub (f32_mul (f32_of_int 2) l) t1)) T2).
  { destruct (mul_val (f32_of_int 2) l F2 Fl) as (Fa & Va); [rewrite V2; lra|]. rewrite V2 in Va.
    pose proof (rb1 (2 * B2R l) ltac:(lra)) as Ra. rewrite <- Va in Ra. set (a := f32_mul (f32_of_int 2) l) in *.
    assert (E : T2 = 2 * B2R l - T1) by reflexivity.
    destruct (sub_val a t1 Fa Ft1) as (Fb & Vb); [unfold near in *; lra|]. split; [auto|]. rewrite Vb.
    pose proof (rb1 (B2R a - B2R t1) ltac:(unfold near in *; lra)). unfold near in *. lra. }
  destruct Nt2 as (Ft2 & Nt2). set (t2 := f32_sub (f32_mul (f32_of_int 2) l) t1) in *.
  set (th := f32_div (f32_of_int 1) (f32_of_int 3)) in *.
  (* a component at a hue t that is w up to 4u, modulo 1 *)
  assert (K : forall t w, is_finite t = true -> 0 <= B2R t <= 1 -> near (24 * u32) (hump (B2R t)) (wave w) ->
     is_finite (component32 t1 t2 t) = true /\ near (90 * u32) (B2R (component32 t1 t2 t)) (T2 + (T1 - T2) * wave w)).
  { intros t w Ft Ht Nw. destruct (component_near t1 t2 t T1 T2 Ft1 Ft2 Ft Nt1 Nt2 Ht B2 B1 B3) as (Fc & Nc). split; [auto|].
    pose proof (near_scale (T1 - T2) _ _ _ Nw ltac:(lra)) as Ns.
    assert ((T1 - T2) * (24 * u32) <= 101 / 100 * (24 * u32)) by (apply Rmult_le_compat_r; lra).
    unfold near in *. lra. }
  assert (Z1 : r32 1 = 1) by (rewrite <- V1 at 1; rewrite (round_generic radix2 fexp32 _ (B2R (f32_of_int 1)) (generic_format_B2R _ _ _)); exact V1).
  assert (Z0 : r32 0 = 0) by (apply round_0; apply valid_rnd_round_mode).
  split; [|split].
  - destruct (add_val h th Fh F3) as (Fr & Vr); [unfold near in *; lra|]. set (x := f32_add h th) in *.
    pose proof (rb1 (B2R h + B2R th) ltac:(unfold near in *; lra)) as Rr. rewrite <- Vr in Rr.
    assert (Pr : 0 <= B2R x) by (rewrite Vr, <- Z0; apply r32_le; unfold near in *; lra).
    destruct (lt_cases (f32_of_int 1) x F1 Fr) as [(-> & L)|(-> & L)]; rewrite V1 in L.
    + destruct (sub_val x (f32_of_int 1) Fr F1) as (Fy & Vy); [rewrite V1; unfold near in *; lra|]. rewrite V1 in Vy.
      pose proof (rb0 (B2R x - 1) ltac:(unfold near in *; lra)) as Ry. rewrite <- Vy in Ry. set (y := f32_sub x (f32_of_int 1)) in *.
      assert (Py : 0 <= B2R y <= 1).
      { rewrite Vy. split; [rewrite <- Z0|rewrite <- Z1 at 2]; apply r32_le; unfold near in *; lra. }
      apply K; auto. rewrite <- (wave_hump (B2R y)) by auto.
      replace (B2R h + 1 / 3) with (B2R h + 1 / 3 - 1 + 1) by ring. rewrite wave_per by lra.
      replace (24 * u32) with (6 * (4 * u32)) by ring. apply wave_lip. unfold near in *; lra.
    + apply K; auto. rewrite <- (wave_hump (B2R x)) by auto.
      replace (24 * u32) with (6 * (4 * u32)) by ring. apply wave_lip. unfold near in *; lra.
  - apply K; auto. rewrite wave_hump by auto. unfold near; lra.
  - destruct (sub_val h th Fh F3) as (Fr & Vr); [unfold near in *; lra|]. set (x := f32_sub h th) in *.
    pose proof (rb1 (B2R h - B2R th) ltac:(unfold near in *; lra)) as Rr. rewrite <- Vr in Rr.
    destruct (lt_cases x (f32_of_int 0) Fr F0) as [(-> & L)|(-> & L)]; rewrite V0 in L.
    + destruct (add_val x (f32_of_int 1) Fr F1) as (Fy & Vy); [rewrite V1; unfold near in *; lra|]. rewrite V1 in Vy.
      pose proof (rb0 (B2R x + 1) ltac:(unfold near in *; lra)) as Ry. rewrite <- Vy in Ry. set (y := f32_add x (f32_of_int 1)) in *.
      assert (Py : 0 <= B2R y <= 1).
      { rewrite Vy. split; [rewrite <- Z0|rewrite <- Z1 at 2]; apply r32_le; unfold near in *; lra. }
      apply K; auto. rewrite <- (wave_hump (B2R y)) by auto. rewrite <- (wave_per (B2R h - 1 / 3)) by lra.
      replace (24 * u32) with (6 * (4 * u32)) by ring. apply wave_lip. unfold near in *; lra.
    + apply K; auto; [unfold near in *; lra|]. rewrite <- (wave_hump (B2R x)) by (unfold near in *; lra).
      replace (24 * u32) with (6 * (4 * u32)) by ring. apply wave_lip. unfold near in *; lra.
Qed.
