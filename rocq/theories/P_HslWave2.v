(** * P_HslWave2: what a small change of hue, saturation and luminance does to a colour *)
Require Import ZArith QArith Bool Reals Lra Lia List Psatz.
Require Import Flocq.Core.Core Flocq.IEEE754.BinarySingleNaN.
Require Import Verif.M_Float Verif.M_Binary32 Verif.M_Color Verif.M_ColorF Verif.S_ColorF
  Verif.P_Float Verif.P_Binary32 Verif.P_ColorF Verif.P_ColorF2 Verif.P_ColorF3 Verif.P_ColorF4 Verif.P_HslWave.
Import ListNotations.
Open Scope R_scope.
Local Opaque u32.

Lemma hsl_sat r g b : is_finite r = true -> is_finite g = true -> is_finite b = true ->
  0 <= B2R r <= 1 -> 0 <= B2R g <= 1 -> 0 <= B2R b <= 1 ->
  let '(h, s, l) := rgb_to_hsl32 r g b in
  (grey32 r g b = true /\ h = f32_of_int 0 /\ s = f32_of_int 0 /\ l = r) \/ (grey32 r g b = false /\ 99 / 10 ^ 5 <= B2R s).
Proof.
  intros Fr Fg Fb Hr Hg Hb.
  destruct (grey_cases r g b Fr Fg Fb Hr Hg Hb) as [(E & D)|(E & D)]; unfold rgb_to_hsl32; cbv zeta; fold (grey32 r g b); rewrite E; [left; auto|right].
  split; [reflexivity|].
  destruct (max3f_val r g b Fr Fg Fb) as (FM & VM). destruct (min3f_val r g b Fr Fg Fb) as (Fm & Vm).
  pose proof (max3_min3 (B2R r) (B2R g) (B2R b)) as MM. cbv zeta in MM.
  assert (H0 : 0 <= B2R (min3f r g b) <= B2R (max3f r g b)) by (rewrite VM, Vm; lra).
  assert (H1 : B2R (max3f r g b) <= 1) by (rewrite VM; lra).
  pose proof (lum_val _ _ FM Fm H0 H1 D) as (FL & BL & _). pose proof (sat_val _ _ FM Fm H0 H1 D) as (FS & BS & N1 & N2).
  destruct (diff_val _ _ FM Fm H0 H1) as (_ & VD). pose proof (rb0 (B2R (max3f r g b) - B2R (min3f r g b)) ltac:(lra)) as ND. rewrite <- VD in ND.
  destruct c001_val as (_ & C3). pose proof u32_range as U. pose proof c0001d_val as C.
  match goal with |- _ <= B2R ?s => set (sat := s) in * end.
  match type of FL with is_finite ?l = true => set (lum := l) in * end.
  destruct (top_arm (B2R sat) (B2R lum)) as (TA & TB). 
  assert (Al : 0 <= arm (B2R lum) <= 1 / 2) by (unfold arm; destruct (Rlt_dec (B2R lum) (1 / 2)); lra).
  assert (B2R sat * arm (B2R lum) <= B2R sat * (1 / 2)) by (apply Rmult_le_compat_l; lra).
  unfold near in *. lra.
Qed.

Lemma colour_moved e r g b h' s' l' : is_finite r = true -> is_finite g = true -> is_finite b = true ->
  0 <= B2R r <= 1 -> 0 <= B2R g <= 1 -> 0 <= B2R b <= 1 ->
  is_finite h' = true -> is_finite s' = true -> is_finite l' = true -> 0 <= e <= 7 / 10 ^ 4 ->
  let '(h, s, l) := rgb_to_hsl32 r g b in
  near e (B2R h') (B2R h) -> near e (B2R s') (B2R s) -> near e (B2R l') (B2R l) ->
  let '(r1, g1, b1) := hsl_to_rgb32 h s l in
  let '(r2, g2, b2) := hsl_to_rgb32 h' s' l' in
  (is_finite r2 = true /\ is_finite g2 = true /\ is_finite b2 = true) /\
  near (87 / 10 * e + 190 * u32) (B2R r2) (B2R r1) /\ near (87 / 10 * e + 190 * u32) (B2R g2) (B2R g1) /\
  near (87 / 10 * e + 190 * u32) (B2R b2) (B2R b1).
Proof.
  intros Fr Fg Fb Hr Hg Hb Fh' Fs' Fl' He. pose proof u32_range as U. pose proof c0001d_val as C.
  pose proof (hsl_sat r g b Fr Fg Fb Hr Hg Hb) as HS. pose proof (colour_cases r g b Fr Fg Fb Hr Hg Hb) as K. cbv zeta in K.
  destruct (rgb_to_hsl32 r g b) as ((h & s) & l). intros Nh Ns Nl.
  destruct (abs_val s' Fs') as (Fa & Va).
  destruct HS as [(G & -> & -> & ->)|(G & S9)].
  - destruct (hsl_to_rgb32 _ _ _) as ((r1 & g1) & b1) in K |- *.
    destruct K as (K0 & [(_ & D & -> & -> & ->)|(E & _)]); [|congruence].
    destruct (int_val 0 ltac:(lia)) as (F0 & V0). rewrite V0 in *.
    destruct (lt_0001 (f32_abs s')) eqn:T.
    + unfold hsl_to_rgb32. rewrite T. split; [auto|]. repeat split; unfold near in *; lra.
    + pose proof (back_any h' s' l' Fh' Fs' Fl' ltac:(unfold near in *; lra) ltac:(unfold near in *; lra) ltac:(unfold near in *; lra) T) as B.
      destruct (hsl_to_rgb32 h' s' l') as ((r2 & g2) & b2). destruct B as ((B1 & B2) & (B3 & B4) & (B5 & B6)).
      split; [auto|].
      pose proof (wave_range (B2R h' + 1 / 3)) as W1. pose proof (wave_range (B2R h' - 1 / 3)) as W3.
      pose proof (ramp_range (B2R h') ltac:(unfold near in *; lra)) as W2.
      assert (CG : forall w', -1 / 100 <= w' <= 1 -> near (87 / 10 * e) (comp (B2R s') (B2R l') w') (B2R r)).
      { intros w' Hw. pose proof (comp_grey e 0 (B2R r) 0 (B2R s') (B2R l') w' ltac:(lra) Ns Nl eq_refl Hr Hw) as Z.
        unfold comp at 2 in Z. unfold near in *. lra. }
      pose proof (CG (wave (B2R h' + 1 / 3)) ltac:(lra)) as Z1.
      pose proof (CG (wave (B2R h' - 1 / 3)) ltac:(lra)) as Z3.
      pose proof (CG (ramp (B2R h')) ltac:(lra)) as Z2. unfold near in *. lra.
  - destruct (hsl_to_rgb32 h s l) as ((r1 & g1) & b1) eqn:E1.
    destruct K as ((Fh & Fs & Fl & Hh & Hs & Hl) & _).
    assert (T : lt_0001 (f32_abs s) = false).
    { destruct (abs_val s Fs) as (Fb' & Vb). rewrite lt_0001_val by auto. rewrite Vb. rewrite Rabs_pos_eq by lra. apply Rlt_bool_false. lra. }
    assert (T' : lt_0001 (f32_abs s') = false).
    { rewrite lt_0001_val by auto. rewrite Va. rewrite Rabs_pos_eq by (unfold near in *; lra). apply Rlt_bool_false. unfold near in *; lra. }
    pose proof (back_near h s l Fh Fs Fl Hh Hs Hl T) as A. cbv zeta in A. rewrite E1 in A. rewrite <- !comp_top in A. destruct A as ((A1 & A2) & (A3 & A4) & (A5 & A6)).
    pose proof (back_any h' s' l' Fh' Fs' Fl' ltac:(unfold near in *; lra) ltac:(unfold near in *; lra) ltac:(unfold near in *; lra) T') as B.
    destruct (hsl_to_rgb32 h' s' l') as ((r2 & g2) & b2). destruct B as ((B1 & B2) & (B3 & B4) & (B5 & B6)).
    split; [auto|].
    assert (CL : forall w w', near (6 * e) w' w -> 0 <= w <= 1 -> near (87 / 10 * e) (comp (B2R s') (B2R l') w') (comp (B2R s) (B2R l) w)).
    { intros w w' Nw Hw. apply comp_lip; auto. lra. }
    pose proof (CL _ _ (wave_lip e (B2R h' + 1 / 3) (B2R h + 1 / 3) ltac:(unfold near in *; lra)) (wave_range _)) as Z1.
    pose proof (CL _ _ (wave_lip e (B2R h' - 1 / 3) (B2R h - 1 / 3) ltac:(unfold near in *; lra)) (wave_range _)) as Z3.
    pose proof (CL _ _ (ramp_lip e (B2R h') (B2R h) Nh Hh) (wave_range _)) as Z2.
    unfold near in *. lra.
Qed.

(** 8-bit levels: the conversion there and back is close *)
Lemma level_colours a b c : (0 <= a <= 255)%Z -> (0 <= b <= 255)%Z -> (0 <= c <= 255)%Z ->
  let '(h, s, l) := rgb_to_hsl32 (of_pixel a) (of_pixel b) (of_pixel c) in
  let '(r', g', b') := hsl_to_rgb32 h s l in
  (is_finite h = true /\ is_finite s = true /\ is_finite l = true /\
   0 <= B2R h <= 1 /\ 0 <= B2R s <= 1001 / 1000 /\ 0 <= B2R l <= 1) /\
  near (120 * u32) (B2R r') (B2R (of_pixel a)) /\ near (120 * u32) (B2R g') (B2R (of_pixel b)) /\ near (120 * u32) (B2R b') (B2R (of_pixel c)).
Proof.
  intros Ha Hb Hc. destruct (level a Ha) as (Fa & Ba & Na). destruct (level b Hb) as (Fb & Bb & Nb). destruct (level c Hc) as (Fc & Bc & Nc).
  pose proof (levels_apart a b Ha Hb) as Aab. pose proof (levels_apart a c Ha Hc) as Aac. pose proof (levels_apart b c Hb Hc) as Abc.
  pose proof (colour_cases _ _ _ Fa Fb Fc Ba Bb Bc) as K. cbv zeta in K.
  pose proof (max3_min3 (B2R (of_pixel a)) (B2R (of_pixel b)) (B2R (of_pixel c))) as MM. cbv zeta in MM.
  set (M := max3 _ _ _) in *. set (m := min3 _ _ _) in *. pose proof u32_range as U.
  destruct c001_val as (_ & C3). destruct c0001_val as (_ & C4).
  destruct (rgb_to_hsl32 _ _ _) as ((h & s) & l). destruct (hsl_to_rgb32 h s l) as ((r' & g') & b').
  destruct K as (K0 & [(_ & D & -> & -> & ->)|(_ & F1 & F2 & F3 & N1 & N2 & N3)]); (split; [exact K0|]).
  - assert (a = b) by (apply Aab; lra). assert (a = c) by (apply Aac; lra). subst b c. unfold near. repeat split; lra.
  - assert (E1 : (if close_max (of_pixel a) (of_pixel b) (of_pixel c) (of_pixel a) then M else B2R (of_pixel a)) = B2R (of_pixel a)).
    { destruct (close_cases (of_pixel a) (of_pixel b) (of_pixel c) (of_pixel a)) as [(-> & L)|(-> & L)]; auto; [fold M; lra|]. fold M in L.
      destruct MM as (Q1 & Q2 & Q3 & [E|[E|E]] & _); auto; rewrite E; [rewrite Aab by lra|rewrite Aac by lra]; reflexivity. }
    assert (E2 : (if close_max (of_pixel a) (of_pixel b) (of_pixel c) (of_pixel b) then M else B2R (of_pixel b)) = B2R (of_pixel b)).
    { destruct (close_cases (of_pixel a) (of_pixel b) (of_pixel c) (of_pixel b)) as [(-> & L)|(-> & L)]; auto; [fold M; lra|]. fold M in L.
      destruct MM as (Q1 & Q2 & Q3 & [E|[E|E]] & _); auto; rewrite E; [rewrite Aab by lra|rewrite Abc by lra]; reflexivity. }
    rewrite E1 in N1. rewrite E2 in N2.
    assert (N2' : near (120 * u32) (B2R g') (B2R (of_pixel b))) by (destruct (close_max _ _ _ (of_pixel a)); exact N2).
    auto.
Qed.
