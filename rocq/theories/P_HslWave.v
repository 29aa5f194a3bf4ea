(** * P_HslWave: HSLToRGB in binary32 on values a little outside the unit range *)
Require Import ZArith QArith Qreals Bool Reals Lra Lia List.
Require Import Flocq.Core.Core Flocq.IEEE754.BinarySingleNaN.
Require Import Verif.M_Float Verif.M_Binary32 Verif.M_Color Verif.M_ColorF Verif.P_Float Verif.P_Binary32 Verif.P_ColorF Verif.P_ColorF2.
Import ListNotations.
Open Scope R_scope.
Local Opaque u32.

(** below zero the first ramp of the hump goes on *)
Definition ramp (t : R) : R := if Rlt_dec t 0 then 6 * t else hump t.
Lemma ramp_range t : - 1 / 1000 <= t -> - 6 / 1000 <= ramp t <= 1.
Proof. intros H. pose proof (hump_range t). unfold ramp. destruct (Rlt_dec t 0); lra. Qed.
Lemma ramp_hump t : 0 <= t -> ramp t = hump t.
Proof. intros H. unfold ramp. destruct (Rlt_dec t 0); lra. Qed.
Lemma ramp_lip e a b : near e a b -> 0 <= b <= 1 -> near (6 * e) (ramp a) (wave b).
Proof.
  intros H Hb. rewrite wave_hump by auto. unfold ramp. destruct (Rlt_dec a 0); [|apply hump_lip; auto].
  unfold near in *. hump.
Qed.

Lemma component_any t1 t2 t T1 T2 : is_finite t1 = true -> is_finite t2 = true -> is_finite t = true ->
  near (8 * u32) (B2R t1) T1 -> near (14 * u32) (B2R t2) T2 -> - 1 / 1000 <= B2R t <= 1001 / 1000 ->
  - 2 / 100 <= T2 <= 102 / 100 -> - 2 / 100 <= T1 <= 102 / 100 -> - (102 / 100) <= T1 - T2 <= 102 / 100 ->
  is_finite (component32 t1 t2 t) = true /\
  near (75 * u32) (B2R (component32 t1 t2 t)) (T2 + (T1 - T2) * ramp (B2R t)).
Proof.
  intros F1 F2 Ft N1 N2 Ht HT2 HT1 HD. pose proof u32_range as U.
  destruct sixth_val as (Fa & Na). destruct two_thirds_val as (Fb & Nb). destruct lit_half as (Fh & Vh).
  destruct (int_val 6 ltac:(lia)) as (F6 & V6).
  set (a := f32_div (f32_of_int 1) (f32_of_int 6)) in *. set (b := f32_div (f32_of_int 2) (f32_of_int 3)) in *.
  unfold component32. fold a b.
  assert (ND : is_finite (f32_sub t1 t2) = true /\ near (24 * u32) (B2R (f32_sub t1 t2)) (T1 - T2)).
  { destruct (sub_val t1 t2 F1 F2) as (F & V); [unfold near in *; lra|]. split; [auto|]. rewrite V.
    pose proof (rb1 (B2R t1 - B2R t2) ltac:(unfold near in *; lra)). unfold near in *; lra. }
  destruct ND as (Fd & Nd). set (d := f32_sub t1 t2) in *.
  pose proof (ramp_range (B2R t) ltac:(lra)) as RR.
  assert (Q : forall e k, near e k (ramp (B2R t)) -> -2 <= k <= 2 -> near (102 / 100 * e) ((T1 - T2) * k) ((T1 - T2) * ramp (B2R t))).
  { intros e k Hk He. pose proof (near_mult (T1 - T2) k (T1 - T2) (ramp (B2R t)) 0 e (102 / 100) 2 ltac:(unfold near; lra) Hk HD He) as Hs.
    unfold near in *. lra. }
  assert (BR : - (102 / 100) <= (T1 - T2) * ramp (B2R t) <= 102 / 100).
  { pose proof (near_mult (T1 - T2) (ramp (B2R t)) 0 0 (102 / 100) 1 0 1) as Z. unfold near in *. lra. }
  destruct (lt_cases t a Ft Fa) as [(-> & L1)|(-> & L1)].
  { destruct (mul_val d (f32_of_int 6) Fd F6) as (F3 & V3); [rewrite V6; unfold near in *; lra|]. rewrite V6 in V3.
    set (x := f32_mul d (f32_of_int 6)) in *.
    pose proof (rb3 (B2R d * 6) ltac:(unfold near in *; lra)) as R3. rewrite <- V3 in R3.
    assert (N3 : near (154 * u32) (B2R x) (6 * (T1 - T2))) by (unfold near in *; lra).
    pose proof (near_mult (B2R x) (B2R t) (6 * (T1 - T2)) (B2R t) (154 * u32) 0 7 (17 / 100) N3
      ltac:(unfold near; lra) ltac:(lra) ltac:(unfold near in *; lra)) as N4.
    assert (HQ : near (7 * u32) (6 * B2R t) (ramp (B2R t))).
    { unfold ramp. destruct (Rlt_dec (B2R t) 0); [unfold near; lra|]. destruct (Rle_lt_dec (B2R t) (1 / 6)).
      - replace (hump (B2R t)) with (6 * B2R t) by hump. unfold near. lra.
      - replace (hump (B2R t)) with 1 by (unfold near in *; hump). unfold near in *. lra. }
    pose proof (Q (7 * u32) (6 * B2R t) HQ ltac:(unfold near in *; lra)) as QQ.
    assert (B4 : - (110 / 100) <= B2R x * B2R t <= 110 / 100) by (unfold near in *; lra).
    destruct (mul_val x t F3 Ft) as (F5 & V5); [lra|].
    pose proof (rb1 (B2R x * B2R t) ltac:(lra)) as R5. rewrite <- V5 in R5. set (y := f32_mul x t) in *.
    destruct (add_val t2 y F2 F5) as (F6' & V6'); [unfold near in *; lra|].
    split; [auto|]. rewrite V6'.
    pose proof (rb2 (B2R t2 + B2R y) ltac:(unfold near in *; lra)) as R6. unfold near in *. lra. }
  assert (RH : ramp (B2R t) = hump (B2R t)) by (apply ramp_hump; unfold near in *; lra). rewrite RH in *. clear RR.
  destruct (lt_cases t (f32_of_literal (1 # 2)) Ft Fh) as [(-> & L2)|(-> & L2)]; rewrite Vh in L2.
  { split; [auto|].
    assert (HQ : near (7 * u32) 1 (hump (B2R t))) by (unfold near in *; hump).
    pose proof (Q _ _ HQ ltac:(lra)). unfold near in *. lra. }
  destruct (lt_cases t b Ft Fb) as [(-> & L3)|(-> & L3)].
  { destruct (sub_val b t Fb Ft) as (F3 & V3); [unfold near in *; lra|].
    pose proof (rbm (B2R b - B2R t) ltac:(unfold near in *; lra)) as R3. rewrite <- V3 in R3. set (x := f32_sub b t) in *.
    assert (N3 : near (3 / 2 * u32) (B2R x) (2 / 3 - B2R t)) by (unfold near in *; lra).
    pose proof (near_mult (B2R d) (B2R x) (T1 - T2) (2 / 3 - B2R t) (24 * u32) (3 / 2 * u32) (102 / 100) (17 / 100) Nd N3
      ltac:(lra) ltac:(unfold near in *; lra)) as N4.
    assert (HQ : near (7 * u32) (6 * (2 / 3 - B2R t)) (hump (B2R t))).
    { destruct (Rle_lt_dec (B2R t) (2 / 3)).
      - replace (hump (B2R t)) with (6 * (2 / 3 - B2R t)) by hump. unfold near. lra.
      - rewrite hump_out by lra. unfold near in *. lra. }
    pose proof (Q (7 * u32) (6 * (2 / 3 - B2R t)) HQ ltac:(unfold near in *; lra)) as QQ.
    assert (B4 : - (18 / 100) <= (T1 - T2) * (2 / 3 - B2R t) <= 18 / 100) by (unfold near in *; lra).
    destruct (mul_val d x Fd F3) as (F5 & V5); [unfold near in *; lra|].
    pose proof (rbm (B2R d * B2R x) ltac:(unfold near in *; lra)) as R5. rewrite <- V5 in R5. set (y := f32_mul d x) in *.
    destruct (mul_val y (f32_of_int 6) F5 F6) as (F7 & V7); [rewrite V6; unfold near in *; lra|]. rewrite V6 in V7.
    pose proof (rb1 (B2R y * 6) ltac:(unfold near in *; lra)) as R7. rewrite <- V7 in R7. set (z := f32_mul y (f32_of_int 6)) in *.
    destruct (add_val t2 z F2 F7) as (F8 & V8); [unfold near in *; lra|]. split; [auto|]. rewrite V8.
    pose proof (rb2 (B2R t2 + B2R z) ltac:(unfold near in *; lra)) as R8. unfold near in *. lra. }
  split; [auto|].
  assert (HQ : near (7 * u32) 0 (hump (B2R t))) by (unfold near in *; hump).
  pose proof (Q _ _ HQ ltac:(lra)). unfold near in *. lra.
Qed.

(** temp1 and temp2: the luminance plus and minus the saturation times the distance to black or white *)
Definition arm (l : R) : R := if Rlt_dec l (1 / 2) then l else 1 - l.
Lemma arm_lip e a b : near e a b -> near e (arm a) (arm b).
Proof. unfold near, arm. intros H. destruct (Rlt_dec a (1 / 2)), (Rlt_dec b (1 / 2)); lra. Qed.
Lemma arm_range l : - 1 / 1000 <= l <= 1001 / 1000 -> - 1 / 1000 <= arm l <= 1 / 2.
Proof. unfold arm. intros H. destruct (Rlt_dec l (1 / 2)); lra. Qed.
Lemma top_arm s l : top s l = l + s * arm l /\ bottom s l = l - s * arm l.
Proof. unfold bottom, top, arm. destruct (Rlt_dec l (1 / 2)); lra. Qed.
Lemma arm_prod s l : - 1 / 1000 <= s <= 1003 / 1000 -> - 1 / 1000 <= l <= 1001 / 1000 -> 
  - 1 / 500 <= s * arm l <= 51 / 100 /\ - 1 / 100 <= l + s * arm l <= 101 / 100 /\ - 1 / 100 <= l - s * arm l <= 101 / 100.
Proof.
  intros Hs Hl. pose proof (arm_range l Hl) as A.
  assert (L : s * arm l <= 1003 / 1000 * arm l + 1 / 500).
  { pose proof (Rmult_le_pos (1003 / 1000 - s) (arm l + 1 / 1000) ltac:(lra) ltac:(lra)). lra. }
  assert (G : - 1 / 500 <= s * arm l).
  { pose proof (Rmult_le_pos (s + 1 / 1000) (arm l + 1 / 1000) ltac:(lra) ltac:(lra)). lra. }
  unfold arm in *. destruct (Rlt_dec l (1 / 2)); lra.
Qed.

Lemma temp1_any s l : is_finite s = true -> is_finite l = true -> - 1 / 1000 <= B2R s <= 1003 / 1000 -> - 1 / 1000 <= B2R l <= 1001 / 1000 ->
  is_finite (temp1_of s l) = true /\ near (8 * u32) (B2R (temp1_of s l)) (top (B2R s) (B2R l)).
Proof.
  intros Fs Fl Hs Hl. pose proof u32_range as U. destruct (int_val 1 ltac:(lia)) as (F1 & V1).
  destruct (arm_prod _ _ Hs Hl) as (P1 & P2 & P3). pose proof (proj1 (top_arm (B2R s) (B2R l))) as TA.
  unfold temp1_of. rewrite TA. rewrite lt_half_val by auto. unfold arm in *.
  destruct (Rlt_bool_spec (B2R l) (1 / 2)) as [L|L]; destruct (Rlt_dec (B2R l) (1 / 2)); try lra.
  - destruct (add_val (f32_of_int 1) s F1 Fs) as (F2 & V2); [rewrite V1; lra|]. rewrite V1 in V2.
    pose proof (rb2 (1 + B2R s) ltac:(lra)) as R2. rewrite <- V2 in R2. set (a := f32_add (f32_of_int 1) s) in *.
    pose proof (near_mult (B2R l) (B2R a) (B2R l) (1 + B2R s) 0 (4 * u32) (51 / 100) 4 ltac:(unfold near; lra) R2
       ltac:(lra) ltac:(unfold near in *; lra)) as N.
    destruct (mul_val l a Fl F2) as (F3 & V3); [unfold near in *; lra|]. split; [auto|]. rewrite V3.
    pose proof (rb1 (B2R l * B2R a) ltac:(unfold near in *; lra)). unfold near in *. lra.
  - destruct (add_val l s Fl Fs) as (F2 & V2); [lra|]. pose proof (rb2 (B2R l + B2R s) ltac:(lra)) as R2.
    destruct (mul_val l s Fl Fs) as (F3 & V3); [lra|]. pose proof (rb1 (B2R l * B2R s) ltac:(lra)) as R3.
    rewrite <- V2 in R2. rewrite <- V3 in R3. set (a := f32_add l s) in *. set (b := f32_mul l s) in *.
    destruct (sub_val a b F2 F3) as (F4 & V4); [unfold near in *; lra|]. split; [auto|]. rewrite V4.
    pose proof (rb1 (B2R a - B2R b) ltac:(unfold near in *; lra)). unfold near in *. lra.
Qed.

(** a component: the luminance moved along the arm *)
Definition comp (s l w : R) : R := l + s * arm l * (2 * w - 1).
Lemma comp_top s l w : comp s l w = bottom s l + (top s l - bottom s l) * w.
Proof. destruct (top_arm s l) as (-> & ->). unfold comp. ring. Qed.

Lemma back_any h s l : is_finite h = true -> is_finite s = true -> is_finite l = true ->
  - 1 / 1000 <= B2R h <= 1001 / 1000 -> - 1 / 1000 <= B2R s <= 1003 / 1000 -> - 1 / 1000 <= B2R l <= 1001 / 1000 -> lt_0001 (f32_abs s) = false ->
  let '(r, g, b) := hsl_to_rgb32 h s l in
  (is_finite r = true /\ near (100 * u32) (B2R r) (comp (B2R s) (B2R l) (wave (B2R h + 1 / 3)))) /\
  (is_finite g = true /\ near (100 * u32) (B2R g) (comp (B2R s) (B2R l) (ramp (B2R h)))) /\
  (is_finite b = true /\ near (100 * u32) (B2R b) (comp (B2R s) (B2R l) (wave (B2R h - 1 / 3)))).
Proof.
  intros Fh Fs Fl Hh Hs Hl G. pose proof u32_range as U.
  destruct (int_val 0 ltac:(lia)) as (F0 & V0). destruct (int_val 1 ltac:(lia)) as (F1 & V1). destruct (int_val 2 ltac:(lia)) as (F2 & V2).
  destruct third_val as (F3 & N3).
  unfold hsl_to_rgb32. rewrite G. cbv zeta.
  change (if lt_half l then f32_mul l (f32_add (f32_of_int 1) s) else f32_sub (f32_add l s) (f32_mul l s)) with (temp1_of s l).
  destruct (temp1_any s l Fs Fl Hs Hl) as (Ft1 & Nt1). set (t1 := temp1_of s l) in *.
  destruct (arm_prod (B2R s) (B2R l) Hs Hl) as (P1 & P2 & P3). destruct (top_arm (B2R s) (B2R l)) as (TA & TB).
  rewrite !comp_top. set (T1 := top (B2R s) (B2R l)) in *. assert (E : bottom (B2R s) (B2R l) = 2 * B2R l - T1) by reflexivity.
  set (T2 := bottom (B2R s) (B2R l)) in *.
  assert (Nt2 : is_finite (f32_sub (f32_mul (f32_of_int 2) l) t1) = true /\ near (14 * u32) (B2R (f32_sub (f32_mul (f32_of_int 2) l) t1)) T2).
  { destruct (mul_val (f32_of_int 2) l F2 Fl) as (Fa & Va); [rewrite V2; lra|]. rewrite V2 in Va.
    pose proof (rb2 (2 * B2R l) ltac:(lra)) as Ra. rewrite <- Va in Ra. set (a := f32_mul (f32_of_int 2) l) in *.
    destruct (sub_val a t1 Fa Ft1) as (Fb & Vb); [unfold near in *; lra|]. split; [auto|]. rewrite Vb.
    pose proof (rb1 (B2R a - B2R t1) ltac:(unfold near in *; lra)). unfold near in *. lra. }
  destruct Nt2 as (Ft2 & Nt2). set (t2 := f32_sub (f32_mul (f32_of_int 2) l) t1) in *.
  set (th := f32_div (f32_of_int 1) (f32_of_int 3)) in *.
  assert (BD : - (102 / 100) <= T1 - T2 <= 102 / 100) by lra.
  assert (K : forall t w, is_finite t = true -> - 1 / 1000 <= B2R t <= 1001 / 1000 -> -1 <= w <= 2 -> near (24 * u32) (ramp (B2R t)) w ->
     is_finite (component32 t1 t2 t) = true /\ near (100 * u32) (B2R (component32 t1 t2 t)) (T2 + (T1 - T2) * w)).
  { intros t w Ft Ht Hw Nw. destruct (component_any t1 t2 t T1 T2 Ft1 Ft2 Ft Nt1 Nt2 Ht ltac:(lra) ltac:(lra) BD) as (Fc & Nc). split; [auto|].
    pose proof (near_mult (T1 - T2) (ramp (B2R t)) (T1 - T2) w 0 (24 * u32) (102 / 100) 3 ltac:(unfold near; lra) Nw BD ltac:(unfold near in *; lra)) as Ns.
    unfold near in *. lra. }
  assert (Z1 : r32 1 = 1) by (rewrite <- V1 at 1; rewrite (round_generic radix2 fexp32 _ (B2R (f32_of_int 1)) (generic_format_B2R _ _ _)); exact V1).
  assert (Z0 : r32 0 = 0) by (apply round_0; apply valid_rnd_round_mode).
  assert (WR : forall x, -1 <= wave x <= 2) by (intros x; pose proof (wave_range x); lra).
  split; [|split].
  - destruct (add_val h th Fh F3) as (Fr & Vr); [unfold near in *; lra|]. set (x := f32_add h th) in *.
    pose proof (rb1 (B2R h + B2R th) ltac:(unfold near in *; lra)) as Rr. rewrite <- Vr in Rr.
    assert (Pr : 0 <= B2R x) by (rewrite Vr, <- Z0; apply r32_le; unfold near in *; lra).
    destruct (lt_cases (f32_of_int 1) x F1 Fr) as [(-> & L)|(-> & L)]; rewrite V1 in L.
    + destruct (sub_val x (f32_of_int 1) Fr F1) as (Fy & Vy); [rewrite V1; unfold near in *; lra|]. rewrite V1 in Vy.
      pose proof (rb0 (B2R x - 1) ltac:(unfold near in *; lra)) as Ry. rewrite <- Vy in Ry. set (y := f32_sub x (f32_of_int 1)) in *.
      assert (Py : 0 <= B2R y <= 1).
      { rewrite Vy. split; [rewrite <- Z0|rewrite <- Z1 at 2]; apply r32_le; unfold near in *; lra. }
      apply K; auto; [lra|]. rewrite ramp_hump by lra. rewrite <- (wave_hump (B2R y)) by auto.
      replace (B2R h + 1 / 3) with (B2R h + 1 / 3 - 1 + 1) by ring. rewrite wave_per by lra.
      replace (24 * u32) with (6 * (4 * u32)) by ring. apply wave_lip. unfold near in *; lra.
    + apply K; auto; [lra|]. rewrite ramp_hump by lra. rewrite <- (wave_hump (B2R x)) by auto.
      replace (24 * u32) with (6 * (4 * u32)) by ring. apply wave_lip. unfold near in *; lra.
  - pose proof (ramp_range (B2R h) ltac:(lra)). apply K; auto; [lra|]. unfold near; lra.
  - destruct (sub_val h th Fh F3) as (Fr & Vr); [unfold near in *; lra|]. set (x := f32_sub h th) in *.
    pose proof (rb1 (B2R h - B2R th) ltac:(unfold near in *; lra)) as Rr. rewrite <- Vr in Rr.
    destruct (lt_cases x (f32_of_int 0) Fr F0) as [(-> & L)|(-> & L)]; rewrite V0 in L.
    + destruct (add_val x (f32_of_int 1) Fr F1) as (Fy & Vy); [rewrite V1; unfold near in *; lra|]. rewrite V1 in Vy.
      pose proof (rb0 (B2R x + 1) ltac:(unfold near in *; lra)) as Ry. rewrite <- Vy in Ry. set (y := f32_add x (f32_of_int 1)) in *.
      assert (Py : 0 <= B2R y <= 1).
      { rewrite Vy. split; [rewrite <- Z0|rewrite <- Z1 at 2]; apply r32_le; unfold near in *; lra. }
      apply K; auto; [lra|]. rewrite ramp_hump by lra. rewrite <- (wave_hump (B2R y)) by auto. rewrite <- (wave_per (B2R h - 1 / 3)) by lra.
      replace (24 * u32) with (6 * (4 * u32)) by ring. apply wave_lip. unfold near in *; lra.
    + apply K; auto; [unfold near in *; lra|]. rewrite ramp_hump by lra. rewrite <- (wave_hump (B2R x)) by (unfold near in *; lra).
      replace (24 * u32) with (6 * (4 * u32)) by ring. apply wave_lip. unfold near in *; lra.
Qed.

(** ** small changes of hue, saturation and luminance *)
Lemma comp_lip e s l w s' l' w' : 0 <= e <= 1 / 1000 -> near e s' s -> near e l' l -> near (6 * e) w' w ->
  0 <= s <= 1001 / 1000 -> 0 <= l <= 1 -> 0 <= w <= 1 ->
  near (87 / 10 * e) (comp s' l' w') (comp s l w).
Proof.
  intros He Ns Nl Nw Hs Hl Hw. pose proof (arm_lip _ _ _ Nl) as Na.
  assert (Al : 0 <= arm l <= 1 / 2) by (unfold arm; destruct (Rlt_dec l (1 / 2)); lra).
  assert (Hl' : - 1 / 1000 <= l' <= 1001 / 1000) by (unfold near in *; lra).
  pose proof (arm_range l' Hl') as Al'.
  pose proof (near_mult s' (arm l') s (arm l) e e (1001 / 1000) (1 / 2) Ns Na ltac:(lra) ltac:(lra)) as N1.
  assert (B1 : - (501 / 1000) <= s * arm l <= 501 / 1000).
  { pose proof (Rmult_le_pos s (arm l) ltac:(lra) ltac:(lra)). assert (s * arm l <= 1001 / 1000 * (1 / 2)) by (apply Rmult_le_compat; lra). lra. }
  pose proof (near_mult (s' * arm l') (2 * w' - 1) (s * arm l) (2 * w - 1) (e * (1 / 2) + 1001 / 1000 * e) (12 * e) (501 / 1000) (1012 / 1000)
    N1 ltac:(unfold near in *; lra) B1 ltac:(unfold near in *; lra)) as N2.
  unfold comp. unfold near in *. lra.
Qed.
Lemma comp_grey e s l w s' l' w' : 0 <= e <= 1 / 1000 -> near e s' 0 -> near e l' l -> s = 0 ->
  0 <= l <= 1 -> -1 / 100 <= w' <= 1 -> near (87 / 10 * e) (comp s' l' w') (comp s l w).
Proof.
  intros He Ns Nl -> Hl Hw. 
  assert (Hl' : - 1 / 1000 <= l' <= 1001 / 1000) by (unfold near in *; lra).
  pose proof (arm_range l' Hl') as Al'.
  pose proof (near_mult s' (arm l') 0 0 e (1 / 2) 0 (1 / 2) Ns ltac:(unfold near; lra) ltac:(lra) ltac:(lra)) as N1.
  pose proof (near_mult (s' * arm l') (2 * w' - 1) 0 0 (e * (1 / 2)) 2 0 2) as N2.
  unfold comp. unfold near in *. lra.
Qed.
