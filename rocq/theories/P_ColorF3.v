(** * P_ColorF3: RGBToHSL in binary32, and the two conversions together *)
Require Import ZArith QArith Qreals Bool Reals Lra Lia List.
Require Import Flocq.Core.Core Flocq.Prop.Relative Flocq.IEEE754.BinarySingleNaN.
Require Import Verif.M_Float Verif.M_Binary32 Verif.M_Color Verif.M_ColorF Verif.P_Float Verif.P_Binary32 Verif.P_ColorF Verif.P_ColorF2.
Import ListNotations.
Open Scope R_scope.
Local Opaque u32.

Lemma fix_float (x : f32) : r32 (B2R x) = B2R x.
Proof. apply (round_generic radix2 fexp32 _ (B2R x) (generic_format_B2R _ _ _)). Qed.
Lemma fix_int z : (-256 <= z <= 256)%Z -> r32 (IZR z) = IZR z.
Proof. intros H. destruct (int_val z H) as (_ & <-). apply fix_float. Qed.
Lemma r32_opp x : r32 (- x) = - r32 x.
Proof. exact (round_NE_opp radix2 fexp32 x). Qed.
Lemma Rle_div_l a b c : 0 < c -> a <= b * c -> a / c <= b.
Proof. intros H L. apply Rmult_le_reg_r with c; [auto|]. unfold Rdiv. rewrite Rmult_assoc, Rinv_l by lra. lra. Qed.
Lemma Rle_div_r a b c : 0 < c -> a * c <= b -> a <= b / c.
Proof. intros H L. apply Rmult_le_reg_r with c; [auto|]. unfold Rdiv. rewrite Rmult_assoc, Rinv_l by lra. lra. Qed.
(** a difference rounded, relative to a larger one *)
Lemma rdiff d x : 9 / 10000 <= d -> - d <= x <= d -> near (u32 * d) (r32 x) x.
Proof.
  intros Hd Hx. pose proof u32_range as U.
  assert (K : forall y, 0 <= y <= d -> near (u32 * d) (r32 y) y).
  { intros y Hy. destruct (Rle_dec (1 / 10 ^ 6) y) as [G|G].
    - pose proof (rrel y G) as N. assert (u32 * y <= u32 * d) by (apply Rmult_le_compat_l; lra). unfold near in *. lra.
    - pose proof (rb (-19) y ltac:(cbn; lra) ltac:(lia)) as N.
      assert (bp (-19) * u32 <= d * u32) by (apply Rmult_le_compat_r; [lra|cbn; lra]). unfold near in *. lra. }
  destruct (Rle_dec 0 x); [apply K; lra|].
  pose proof (K (- x) ltac:(lra)) as N. rewrite r32_opp in N. unfold near in *. lra.
Qed.

Lemma max3f_val a b c : is_finite a = true -> is_finite b = true -> is_finite c = true ->
  is_finite (max3f a b c) = true /\ B2R (max3f a b c) = max3 (B2R a) (B2R b) (B2R c).
Proof.
  intros Fa Fb Fc. unfold max3f, max3.
  destruct (lt_cases a b Fa Fb) as [(-> & L)|(-> & L)].
  - rewrite (Rmax_right (B2R a) (B2R b)) by lra.
    destruct (lt_cases b c Fb Fc) as [(-> & L')|(-> & L')]; [rewrite Rmax_right by lra|rewrite Rmax_left by lra]; auto.
  - rewrite (Rmax_left (B2R a) (B2R b)) by lra.
    destruct (lt_cases a c Fa Fc) as [(-> & L')|(-> & L')]; [rewrite Rmax_right by lra|rewrite Rmax_left by lra]; auto.
Qed.
Lemma min3f_val a b c : is_finite a = true -> is_finite b = true -> is_finite c = true ->
  is_finite (min3f a b c) = true /\ B2R (min3f a b c) = min3 (B2R a) (B2R b) (B2R c).
Proof.
  intros Fa Fb Fc. unfold min3f, min3.
  destruct (lt_cases b a Fb Fa) as [(-> & L)|(-> & L)].
  - rewrite (Rmin_right (B2R a) (B2R b)) by lra.
    destruct (lt_cases c b Fc Fb) as [(-> & L')|(-> & L')]; [rewrite Rmin_right by lra|rewrite Rmin_left by lra]; auto.
  - rewrite (Rmin_left (B2R a) (B2R b)) by lra.
    destruct (lt_cases c a Fc Fa) as [(-> & L')|(-> & L')]; [rewrite Rmin_right by lra|rewrite Rmin_left by lra]; auto.
Qed.
Lemma max3_min3 r g b : let M := max3 r g b in let m := min3 r g b in
  (m <= r <= M) /\ (m <= g <= M) /\ (m <= b <= M) /\ (M = r \/ M = g \/ M = b) /\ (m = r \/ m = g \/ m = b).
Proof. unfold max3, min3, Rmax, Rmin. repeat destruct (Rle_dec _ _); lra. Qed.

(** saturation and luminance, from the largest and smallest component *)
Section Saturation.
  Context (X Y : f32) (FX : is_finite X = true) (FY : is_finite Y = true).
  Let M := B2R X. Let m := B2R Y. Let d := M - m.
  Context (H : 0 <= m <= M) (HM : M <= 1).
  Let diff := f32_sub X Y. Let sum := f32_add X Y.
  Let lum := f32_div sum (f32_of_int 2).
  Let sat := if lt_half lum then f32_div diff sum else f32_div diff (f32_sub (f32_of_int 2) sum).
  Lemma diff_val : is_finite diff = true /\ B2R diff = r32 d.
  Proof. apply sub_val; auto; unfold d, M, m in *; lra. Qed.
  Lemma sum_val : is_finite sum = true /\ B2R sum = r32 (M + m).
  Proof. apply add_val; auto; unfold M, m in *; lra. Qed.
  Context (G : c001 <= B2R diff).
  Lemma diff_big : 9 / 10000 <= d /\ near (u32 * d) (B2R diff) d /\ 1 / 1000 <= B2R diff <= 1.
  Proof.
    destruct diff_val as (_ & V). pose proof u32_range as U. pose proof c001_val as (_ & C).
    pose proof (rb0 d ltac:(unfold d; lra)) as N. rewrite <- V in N.
    assert (D9 : 9 / 10000 <= d) by (unfold near in *; lra). split; [auto|]. split; [rewrite V; apply rrel; lra|]. split; [lra|].
    rewrite V. rewrite <- (fix_int 1 ltac:(lia)). apply r32_le. unfold d. lra.
  Qed.
  Lemma lum_val : is_finite lum = true /\ 0 <= B2R lum <= 1 /\ near u32 (B2R lum) (B2R sum / 2) /\
    near (2 * u32) (B2R sum) (M + m) /\ B2R diff <= B2R sum <= 2.
  Proof.
    destruct sum_val as (F & V). destruct diff_val as (_ & V'). pose proof u32_range as U. pose proof c001_val as (_ & C).
    pose proof (rb1 (M + m) ltac:(lra)) as N. rewrite <- V in N.
    assert (S : B2R diff <= B2R sum <= 2).
    { rewrite V, V'. split; [apply r32_le; unfold d; lra|]. rewrite <- (fix_int 2 ltac:(lia)). apply r32_le. lra. }
    destruct (int_val 2 ltac:(lia)) as (F2 & V2).
    destruct (div_val sum (f32_of_int 2) F) as (F3 & V3); [rewrite V2; lra|rewrite V2; lra|]. fold lum in F3, V3. rewrite V2 in V3.
    split; [auto|]. split; [|split; [rewrite V3; apply rb0; lra|auto]].
    rewrite V3. split; [rewrite <- (fix_int 0 ltac:(lia))|rewrite <- (fix_int 1 ltac:(lia))]; apply r32_le; lra.
  Qed.
  Lemma sat_val : is_finite sat = true /\ c0001d <= B2R sat <= 1001 / 1000 /\
    near (6 * u32) (top (B2R sat) (B2R lum)) M /\ near (6 * u32) (bottom (B2R sat) (B2R lum)) m.
  Proof.
    destruct sum_val as (FS & VS). destruct diff_val as (FD & VD). pose proof u32_range as U. pose proof c001_val as (_ & C). pose proof c0001d_val as C'.
    destruct diff_big as (D9 & ND & BD). destruct lum_val as (FL & BL & NL & NS & BS).
    assert (UD : 0 <= u32 * d <= u32) by (split; [apply Rmult_le_pos; lra|replace u32 with (u32 * 1) at 2 by ring; apply Rmult_le_compat_l; unfold d; lra]).
    assert (UD' : u32 * d <= 1 / 10 ^ 7 * d) by (apply Rmult_le_compat_r; lra).
    unfold sat, bottom, top. rewrite lt_half_val by auto.
    set (D := B2R diff) in *. set (S := B2R sum) in *. set (l := B2R lum) in *.
    destruct (Rlt_bool_spec l (1 / 2)) as [L|L]; destruct (Rlt_dec l (1 / 2)); try lra.
    - assert (Q1 : D / S <= 1) by (apply Rle_div_l; lra). assert (Q2 : D / 2 <= D / S) by (apply Rle_div_r; [lra|]; replace (D / 2 * S) with (D * (S / 2)) by field; replace D with (D * 1) at 2 by ring; apply Rmult_le_compat_l; lra).
      destruct (div_val diff sum FD) as (F & V); fold D S; [lra|lra|]. fold D S in V.
      set (s := f32_div diff sum) in *. pose proof (rb0 (D / S) ltac:(lra)) as N. rewrite <- V in N.
      assert (B1 : B2R s <= 1) by (rewrite V; rewrite <- (fix_int 1 ltac:(lia)); apply r32_le; lra).
      split; [auto|]. split; [unfold near in *; lra|].
      pose proof (near_mult l (B2R s) (S / 2) (D / S) u32 u32 (6 / 10) 1 NL N ltac:(unfold near in *; lra) ltac:(unfold near in *; lra)) as P.
      replace (S / 2 * (D / S)) with (D / 2) in P by (field; lra).
      unfold near, d in *. lra.
    - destruct (int_val 2 ltac:(lia)) as (F2 & V2).
      destruct (sub_val (f32_of_int 2) sum F2 FS) as (FQ & VQ); [rewrite V2; fold S; lra|]. rewrite V2 in VQ. fold S in VQ.
      set (q := f32_sub (f32_of_int 2) sum) in *.
      assert (S2 : 8 / 10000 <= 2 - S <= 1 + 3 * u32) by (unfold near, d in *; lra).
      pose proof (rrel (2 - S) ltac:(lra)) as NQ. rewrite <- VQ in NQ.
      assert (UQ : 0 <= u32 * (2 - S) <= 11 / 10 * u32) by (split; [apply Rmult_le_pos; lra|rewrite (Rmult_comm u32); apply Rmult_le_compat_r; lra]).
      assert (UQ' : u32 * (2 - S) <= 1 / 10 ^ 7 * (2 - S)) by (apply Rmult_le_compat_r; lra).
      set (Q := B2R q) in *.
      assert (BQ : 7 / 10000 <= Q <= 11 / 10) by (unfold near in *; lra).
      assert (DQ : D <= 10005 / 10000 * Q) by (unfold near, d in *; lra).
      assert (Q1 : D / Q <= 10005 / 10000) by (apply Rle_div_l; lra).
      assert (Q2 : D / 2 <= D / Q) by (apply Rle_div_r; [lra|]; replace (D / 2 * Q) with (D * (Q / 2)) by field; replace D with (D * 1) at 2 by ring; apply Rmult_le_compat_l; lra).
      destruct (div_val diff q FD) as (F & V); fold D Q; [lra|lra|]. fold D Q in V.
      set (s := f32_div diff q) in *. pose proof (rb1 (D / Q) ltac:(lra)) as N. rewrite <- V in N.
      split; [auto|]. split; [unfold near in *; lra|].
      assert (NL' : near (16 / 10 * u32) (1 - l) (Q / 2)) by (unfold near in *; lra).
      pose proof (near_mult (1 - l) (B2R s) (Q / 2) (D / Q) (16 / 10 * u32) (2 * u32) (55 / 100) (1001 / 1000) NL' N ltac:(lra) ltac:(unfold near in *; lra)) as P.
      replace (Q / 2 * (D / Q)) with (D / 2) in P by (field; lra).
      unfold near, d in *. lra.
  Qed.

  (** the hue: a difference over the largest difference *)
  Lemma ratio_val x y : is_finite x = true -> is_finite y = true -> m <= B2R x <= M -> m <= B2R y <= M ->
    let q := f32_div (f32_sub x y) diff in
    is_finite q = true /\ -1 <= B2R q <= 1 /\ near (3 * u32) (B2R q) ((B2R x - B2R y) / d).
  Proof.
    intros Fx Fy Hx Hy q. destruct diff_val as (FD & VD). destruct diff_big as (D9 & ND & BD). pose proof u32_range as U.
    destruct (sub_val x y Fx Fy) as (Fz & Vz); [unfold M, m in *; lra|]. set (z := f32_sub x y) in *.
    pose proof (rdiff d (B2R x - B2R y) D9 ltac:(unfold d; lra)) as Nz. rewrite <- Vz in Nz.
    assert (Bz : - B2R diff <= B2R z <= B2R diff).
    { rewrite Vz, VD. split; [|apply r32_le; unfold d; lra]. rewrite <- r32_opp. apply r32_le. unfold d. lra. }
    set (D := B2R diff) in *.
    assert (BY : -1 <= B2R z / D <= 1) by (split; [apply Rle_div_r|apply Rle_div_l]; lra).
    destruct (div_val z diff Fz) as (F & V); fold D; [lra|lra|]. fold D in V. fold q in F, V.
    split; [auto|]. split. { rewrite V. split; [rewrite <- (fix_int (-1) ltac:(lia))|rewrite <- (fix_int 1 ltac:(lia))]; apply r32_le; lra. }
    pose proof (rb0 (B2R z / D) BY) as N. rewrite <- V in N.
    assert (K : near (2 * u32) (B2R z / D) ((B2R x - B2R y) / d)).
    { set (w := B2R z / D) in *. set (rho := (B2R x - B2R y) / d).
      assert (E1 : B2R z = w * D) by (unfold w; field; lra). assert (E2 : B2R x - B2R y = rho * d) by (unfold rho; field; lra).
      assert (E3 : Rabs (w * (D - d)) <= u32 * d).
      { rewrite Rabs_mult. replace (u32 * d) with (1 * (u32 * d)) by ring.
        apply Rmult_le_compat; auto using Rabs_pos; [apply Rabs_le; lra|apply near_abs; auto]. }
      apply Rabs_le_inv in E3. rewrite E1, E2 in Nz. apply near_abs. apply Rmult_le_reg_r with d; [lra|].
      rewrite <- (Rabs_pos_eq d) at 1 by lra. rewrite <- Rabs_mult. apply Rabs_le. unfold near in *. lra. }
    unfold near in *. lra.
  Qed.
End Saturation.

(** the folded hue *)
Definition fold_hue32 (x : f32) : f32 :=
  let h := f32_div x (f32_of_int 6) in if f32_lt h (f32_of_int 0) then f32_add h (f32_of_int 1) else h.
Lemma fold_near x X : is_finite x = true -> -1 <= B2R x <= 5 + 1 / 100 -> near (11 * u32) (B2R x) X ->
  is_finite (fold_hue32 x) = true /\ 0 <= B2R (fold_hue32 x) <= 1 /\
  (near (4 * u32) (B2R (fold_hue32 x)) (X / 6) \/ near (4 * u32) (B2R (fold_hue32 x)) (X / 6 + 1) /\ X <= 1).
Proof.
  intros Fx Bx Nx. pose proof u32_range as U. destruct (int_val 6 ltac:(lia)) as (F6 & V6). destruct (int_val 0 ltac:(lia)) as (F0 & V0).
  destruct (int_val 1 ltac:(lia)) as (F1 & V1).
  destruct (div_val x (f32_of_int 6) Fx) as (Fh & Vh); [rewrite V6; lra|rewrite V6; lra|]. rewrite V6 in Vh. unfold fold_hue32. cbv zeta.
  set (h := f32_div x (f32_of_int 6)) in *. pose proof (rb0 (B2R x / 6) ltac:(lra)) as Nh. rewrite <- Vh in Nh.
  destruct (lt_cases h (f32_of_int 0) Fh F0) as [(-> & L)|(-> & L)]; rewrite V0 in L.
  - destruct (add_val h (f32_of_int 1) Fh F1) as (Fy & Vy); [rewrite V1; unfold near in *; lra|]. rewrite V1 in Vy.
    set (y := f32_add h (f32_of_int 1)) in *. pose proof (rb0 (B2R h + 1) ltac:(unfold near in *; lra)) as Ny. rewrite <- Vy in Ny.
    split; [auto|]. split.
    { rewrite Vy. split; [rewrite <- (fix_int 0 ltac:(lia))|rewrite <- (fix_int 1 ltac:(lia)) at 2]; apply r32_le; unfold near in *; lra. }
    right. unfold near in *. lra.
  - split; [auto|]. split; [unfold near in *; lra|]. left. unfold near in *. lra.
Qed.

Lemma wave_of x : -1 <= x <= 1 ->
  wave (x / 6 + 1 / 3) = 1 /\ wave (x / 6) = Rmax 0 x /\ wave (x / 6 - 1 / 3) = Rmax 0 (- x) /\ wave (x / 6 + 2 / 3) = Rmax 0 (- x) /\ wave (x / 6 + 1) = Rmax 0 x.
Proof.
  intros H.
  assert (E4 : wave (x / 6 + 2 / 3) = Rmax 0 (- x)) by (rewrite wave_hump by lra; hump).
  assert (E2 : wave (x / 6) = Rmax 0 x).
  { destruct (Rle_dec 0 x); [rewrite wave_hump by lra; hump|]. rewrite <- wave_per by lra. rewrite wave_hump by lra. hump. }
  repeat split; auto; [rewrite wave_hump by lra; hump| |rewrite wave_per by lra; auto].
  rewrite <- wave_per by lra. rewrite <- E4. f_equal. lra.
Qed.

Lemma folded_waves x X : is_finite x = true -> -1 <= B2R x <= 5 + 1 / 100 -> near (11 * u32) (B2R x) X ->
  let h := B2R (fold_hue32 x) in
  near (24 * u32) (wave (h + 1 / 3)) (wave (X / 6 + 1 / 3)) /\ near (24 * u32) (wave h) (wave (X / 6)) /\
  near (24 * u32) (wave (h - 1 / 3)) (wave (X / 6 - 1 / 3)).
Proof.
  intros Fx Bx Nx h. destruct (fold_near x X Fx Bx Nx) as (_ & _ & N). fold h in N. pose proof u32_range as U.
  replace (24 * u32) with (6 * (4 * u32)) by ring. destruct N as [N|(N & L)].
  - repeat split; try (apply wave_lip; unfold near in *; lra).
  - assert (-2 <= X) by (unfold near in *; lra).
    rewrite <- (wave_per (X / 6 + 1 / 3)), <- (wave_per (X / 6)), <- (wave_per (X / 6 - 1 / 3)) by lra.
    repeat split; try (apply wave_lip; unfold near in *; lra).
Qed.

(** the two conversions together *)
Definition grey32 (red green blue : f32) : bool :=
  f32_lt (f32_abs (f32_sub (max3f red green blue) (min3f red green blue))) (f32_of_literal (1 # 1000)).
Definition close_max (red green blue x : f32) : bool :=
  f32_lt (f32_abs (f32_sub (max3f red green blue) x)) (f32_of_literal (1 # 10000)).
Definition hue6 (red green blue : f32) : f32 :=
  let diff := f32_sub (max3f red green blue) (min3f red green blue) in
  if close_max red green blue red then f32_div (f32_sub green blue) diff
  else if close_max red green blue green then f32_add (f32_of_int 2) (f32_div (f32_sub blue red) diff)
  else f32_add (f32_of_int 4) (f32_div (f32_sub red green) diff).

Lemma close_cases r g b x : is_finite r = true -> is_finite g = true -> is_finite b = true -> is_finite x = true ->
  0 <= B2R r <= 1 -> 0 <= B2R g <= 1 -> 0 <= B2R b <= 1 -> 0 <= B2R x <= max3 (B2R r) (B2R g) (B2R b) ->
  (close_max r g b x = true /\ max3 (B2R r) (B2R g) (B2R b) - B2R x < c0001) \/
  (close_max r g b x = false /\ c0001 - u32 <= max3 (B2R r) (B2R g) (B2R b) - B2R x).
Proof.
  intros Fr Fg Fb Fx Hr Hg Hb Hx. destruct (max3f_val r g b Fr Fg Fb) as (FM & VM).
  pose proof (max3_min3 (B2R r) (B2R g) (B2R b)) as MM. cbv zeta in MM.
  destruct (sub_val (max3f r g b) x FM Fx) as (F & V); [rewrite VM; lra|]. rewrite VM in V. unfold close_max.
  set (y := f32_sub (max3f r g b) x) in *. destruct (abs_val y F) as (Fa & Va).
  set (M := max3 (B2R r) (B2R g) (B2R b)) in *. assert (P : 0 <= B2R y) by (rewrite V, <- (fix_int 0 ltac:(lia)); apply r32_le; lra).
  rewrite (Rabs_pos_eq _ P) in Va. destruct c0001_val as (Fc & _).
  destruct (lt_cases (f32_abs y) _ Fa Fc) as [(-> & L)|(-> & L)]; rewrite Va in L; fold c0001 in L; [left|right]; (split; [reflexivity|]).
  - apply Rnot_le_lt. intros Q. apply r32_le in Q. unfold c0001 in *. rewrite fix_float in Q. lra.
  - pose proof (rb0 (M - B2R x) ltac:(lra)) as N. rewrite <- V in N. unfold near in *. lra.
Qed.
Lemma grey_cases r g b : is_finite r = true -> is_finite g = true -> is_finite b = true ->
  0 <= B2R r <= 1 -> 0 <= B2R g <= 1 -> 0 <= B2R b <= 1 ->
  let M := max3 (B2R r) (B2R g) (B2R b) in let m := min3 (B2R r) (B2R g) (B2R b) in
  (grey32 r g b = true /\ M - m < c001) \/
  (grey32 r g b = false /\ c001 <= B2R (f32_sub (max3f r g b) (min3f r g b))).
Proof.
  intros Fr Fg Fb Hr Hg Hb M m. destruct (max3f_val r g b Fr Fg Fb) as (FM & VM). destruct (min3f_val r g b Fr Fg Fb) as (Fm & Vm).
  pose proof (max3_min3 (B2R r) (B2R g) (B2R b)) as MM. cbv zeta in MM. fold M m in MM, VM, Vm.
  destruct (sub_val (max3f r g b) (min3f r g b) FM Fm) as (F & V); [rewrite VM, Vm; lra|]. rewrite VM, Vm in V. unfold grey32.
  set (y := f32_sub (max3f r g b) (min3f r g b)) in *. destruct (abs_val y F) as (Fa & Va).
  assert (P : 0 <= B2R y) by (rewrite V, <- (fix_int 0 ltac:(lia)); apply r32_le; lra).
  rewrite (Rabs_pos_eq _ P) in Va. destruct c001_val as (Fc & _).
  destruct (lt_cases (f32_abs y) _ Fa Fc) as [(-> & L)|(-> & L)]; rewrite Va in L; fold c001 in L; [left|right]; (split; [reflexivity|]); auto.
  apply Rnot_le_lt. intros Q. apply r32_le in Q. unfold c001 in *. rewrite fix_float in Q. lra.
Qed.

Lemma mix_near T1 T2 M m w w' : near (6 * u32) T1 M -> near (6 * u32) T2 m -> near (24 * u32) w w' -> 0 <= m <= M -> M <= 1 -> 0 <= w <= 1 ->
  near (30 * u32) (T2 + (T1 - T2) * w) (m + (M - m) * w').
Proof.
  intros N1 N2 Nw Hm HM Hw. pose proof u32_range as U.
  pose proof (near_scale w _ _ _ N1 ltac:(lra)). pose proof (near_scale (1 - w) _ _ _ N2 ltac:(lra)).
  pose proof (near_scale (M - m) _ _ _ Nw ltac:(lra)).
  assert ((M - m) * (24 * u32) <= 1 * (24 * u32)) by (apply Rmult_le_compat_r; lra).
  unfold near in *. lra.
Qed.

(** the hue against the exact formula, in each branch *)
Lemma hue_cases r g b : is_finite r = true -> is_finite g = true -> is_finite b = true ->
  0 <= B2R r <= 1 -> 0 <= B2R g <= 1 -> 0 <= B2R b <= 1 -> grey32 r g b = false ->
  let M := max3 (B2R r) (B2R g) (B2R b) in let m := min3 (B2R r) (B2R g) (B2R b) in
  let x := hue6 r g b in
  is_finite x = true /\ -1 <= B2R x <= 5 + 1 / 100 /\
  exists X, near (11 * u32) (B2R x) X /\
    (m + (M - m) * wave (X / 6 + 1 / 3) = (if close_max r g b r then M else B2R r)) /\
    (m + (M - m) * wave (X / 6) = (if close_max r g b r then B2R g else if close_max r g b g then M else B2R g)) /\
    (m + (M - m) * wave (X / 6 - 1 / 3) = B2R b).
Proof.
  intros Fr Fg Fb Hr Hg Hb G M m x. pose proof u32_range as U. pose proof c0001_val as (_ & C4).
  destruct (max3f_val r g b Fr Fg Fb) as (FM & VM). destruct (min3f_val r g b Fr Fg Fb) as (Fm & Vm).
  pose proof (max3_min3 (B2R r) (B2R g) (B2R b)) as MM. cbv zeta in MM.
  destruct (grey_cases r g b Fr Fg Fb Hr Hg Hb) as [(E & _)|(_ & D)]; [congruence|].
  assert (H0 : 0 <= B2R (min3f r g b) <= B2R (max3f r g b)) by (rewrite VM, Vm; lra).
  assert (H1 : B2R (max3f r g b) <= 1) by (rewrite VM; lra).
  destruct (diff_big _ _ FM Fm H0 H1 D) as (D9 & _ & _). rewrite VM, Vm in D9.
  pose proof (fun u v => ratio_val _ _ FM Fm H0 H1 D u v) as Rt. rewrite VM, Vm in Rt. cbv zeta in Rt.
  unfold x, hue6. cbv zeta. fold M m in MM, Rt, D9. set (df := f32_sub (max3f r g b) (min3f r g b)) in *.
  destruct (close_cases r g b r) as [(-> & K)|(-> & K)]; auto; try (fold M; lra); fold M in K.
  { destruct (Rt g b Fg Fb) as (F & B & N); try lra. set (q := f32_div (f32_sub g b) df) in *. set (rho := (B2R g - B2R b) / (M - m)) in *.
    split; [auto|]. split; [lra|]. exists rho. split; [unfold near in *; lra|].
    assert (E : (M - m) * rho = B2R g - B2R b) by (unfold rho; field; lra).
    assert (Br : -1 <= rho <= 1) by (unfold rho; split; [apply Rle_div_r|apply Rle_div_l]; lra).
    destruct (wave_of rho Br) as (-> & -> & -> & _).
    split; [lra|]. unfold Rmax. destruct (Rle_dec 0 rho) as [L|L]; destruct (Rle_dec 0 (- rho)) as [L'|L']; try lra.
    - assert (rho = 0) by lra. rewrite H in *. split; lra.
    - assert (0 <= (M - m) * rho) by (apply Rmult_le_pos; lra). split; lra.
    - assert (0 <= (M - m) * - rho) by (apply Rmult_le_pos; lra). split; lra. }
  destruct (close_cases r g b g) as [(-> & K')|(-> & K')]; auto; try (fold M; lra); fold M in K'.
  { destruct (Rt b r Fb Fr) as (F & B & N); try lra. set (q := f32_div (f32_sub b r) df) in *. set (rho := (B2R b - B2R r) / (M - m)) in *.
    destruct (int_val 2 ltac:(lia)) as (F2 & V2). destruct (add_val (f32_of_int 2) q F2 F) as (Fs & Vs); [rewrite V2; lra|]. rewrite V2 in Vs.
    pose proof (rb2 (2 + B2R q) ltac:(lra)) as Ns. rewrite <- Vs in Ns.
    split; [auto|]. split; [unfold near in *; lra|]. exists (2 + rho). split; [unfold near in *; lra|].
    assert (E : (M - m) * rho = B2R b - B2R r) by (unfold rho; field; lra).
    assert (Br : -1 <= rho <= 1) by (unfold rho; split; [apply Rle_div_r|apply Rle_div_l]; lra).
    replace ((2 + rho) / 6 + 1 / 3) with (rho / 6 + 2 / 3) by field. replace ((2 + rho) / 6 - 1 / 3) with (rho / 6) by field.
    replace ((2 + rho) / 6) with (rho / 6 + 1 / 3) by field.
    destruct (wave_of rho Br) as (-> & -> & _ & -> & _).
    unfold Rmax. destruct (Rle_dec 0 rho) as [L|L]; destruct (Rle_dec 0 (- rho)) as [L'|L']; try lra.
    - assert (rho = 0) by lra. rewrite H in *. split; [|split]; lra.
    - assert (0 <= (M - m) * rho) by (apply Rmult_le_pos; lra). split; [|split]; lra.
    - assert (0 <= (M - m) * - rho) by (apply Rmult_le_pos; lra). split; [|split]; lra. }
  { destruct (Rt r g Fr Fg) as (F & B & N); try lra. set (q := f32_div (f32_sub r g) df) in *. set (rho := (B2R r - B2R g) / (M - m)) in *.
    destruct (int_val 4 ltac:(lia)) as (F2 & V2). destruct (add_val (f32_of_int 4) q F2 F) as (Fs & Vs); [rewrite V2; lra|]. rewrite V2 in Vs.
    pose proof (rb3 (4 + B2R q) ltac:(lra)) as Ns. rewrite <- Vs in Ns.
    split; [auto|]. split; [unfold near in *; lra|]. exists (4 + rho). split; [unfold near in *; lra|].
    assert (E : (M - m) * rho = B2R r - B2R g) by (unfold rho; field; lra).
    assert (Br : -1 <= rho <= 1) by (unfold rho; split; [apply Rle_div_r|apply Rle_div_l]; lra).
    replace ((4 + rho) / 6 + 1 / 3) with (rho / 6 + 1) by field. replace ((4 + rho) / 6 - 1 / 3) with (rho / 6 + 1 / 3) by field.
    replace ((4 + rho) / 6) with (rho / 6 + 2 / 3) by field.
    destruct (wave_of rho Br) as (-> & _ & _ & -> & ->).
    unfold Rmax. destruct (Rle_dec 0 rho) as [L|L]; destruct (Rle_dec 0 (- rho)) as [L'|L']; try lra.
    - assert (rho = 0) by lra. rewrite H in *. split; [|split]; lra.
    - assert (0 <= (M - m) * rho) by (apply Rmult_le_pos; lra). split; [|split]; lra.
    - assert (0 <= (M - m) * - rho) by (apply Rmult_le_pos; lra). split; [|split]; lra. }
Qed.

Lemma colour_cases r g b : is_finite r = true -> is_finite g = true -> is_finite b = true ->
  0 <= B2R r <= 1 -> 0 <= B2R g <= 1 -> 0 <= B2R b <= 1 ->
  let M := max3 (B2R r) (B2R g) (B2R b) in let m := min3 (B2R r) (B2R g) (B2R b) in
  let '(h, s, l) := rgb_to_hsl32 r g b in
  let '(r', g', b') := hsl_to_rgb32 h s l in
  (is_finite h = true /\ is_finite s = true /\ is_finite l = true /\
   0 <= B2R h <= 1 /\ 0 <= B2R s <= 1001 / 1000 /\ 0 <= B2R l <= 1) /\
  ((grey32 r g b = true /\ M - m < c001 /\ r' = r /\ g' = r /\ b' = r) \/
   (grey32 r g b = false /\ is_finite r' = true /\ is_finite g' = true /\ is_finite b' = true /\
    near (120 * u32) (B2R r') (if close_max r g b r then M else B2R r) /\
    near (120 * u32) (B2R g') (if close_max r g b r then B2R g else if close_max r g b g then M else B2R g) /\
    near (120 * u32) (B2R b') (B2R b))).
Proof.
  intros Fr Fg Fb Hr Hg Hb M m.
  destruct (grey_cases r g b Fr Fg Fb Hr Hg Hb) as [(E & D)|(E & D)]; unfold rgb_to_hsl32; cbv zeta; fold (grey32 r g b); rewrite E.
  { fold M m in D. destruct (int_val 0 ltac:(lia)) as (F0 & V0).
    assert (T : lt_0001 (f32_abs (f32_of_int 0)) = true) by (vm_compute; reflexivity).
    unfold hsl_to_rgb32. rewrite T. split; [|left; auto]. rewrite V0. repeat split; auto; lra. }
  destruct (max3f_val r g b Fr Fg Fb) as (FM & VM). destruct (min3f_val r g b Fr Fg Fb) as (Fm & Vm). fold M in VM. fold m in Vm.
  pose proof (max3_min3 (B2R r) (B2R g) (B2R b)) as MM. cbv zeta in MM. fold M m in MM.
  assert (H0 : 0 <= B2R (min3f r g b) <= B2R (max3f r g b)) by (rewrite VM, Vm; lra).
  assert (H1 : B2R (max3f r g b) <= 1) by (rewrite VM; lra).
  pose proof (lum_val _ _ FM Fm H0 H1 D) as (FL & BL & _). pose proof (sat_val _ _ FM Fm H0 H1 D) as (FS & BS & N1 & N2).
  rewrite VM in N1. rewrite Vm in N2.
  pose proof (hue_cases r g b Fr Fg Fb Hr Hg Hb E) as (Fx & Bx & X & NX & W1 & W2 & W3). fold M m in W1, W2, W3.
  unfold close_max in W1, W2 |- *. fold (close_max r g b r) (close_max r g b g) in *.
  match goal with |- context [hsl_to_rgb32 ?h ?s ?l] => change h with (fold_hue32 (hue6 r g b)); set (sat := s) in *; set (lum := l) in * end.
  destruct (fold_near _ _ Fx Bx NX) as (Fh & Bh & _). destruct (folded_waves _ _ Fx Bx NX) as (Q1 & Q2 & Q3).
  set (h := fold_hue32 (hue6 r g b)) in *. pose proof c0001d_val as C. pose proof u32_range as U.
  assert (T : lt_0001 (f32_abs sat) = false).
  { destruct (abs_val sat FS) as (Fa & Va). rewrite lt_0001_val by auto. rewrite Va. rewrite Rabs_pos_eq by lra. apply Rlt_bool_false. lra. }
  pose proof (back_near h sat lum Fh FS FL Bh ltac:(lra) BL T) as K. cbv zeta in K.
  destruct (hsl_to_rgb32 h sat lum) as ((r' & g') & b'). destruct K as ((K1 & K2) & (K3 & K4) & (K5 & K6)).
  split; [repeat split; auto; lra|]. right. split; [reflexivity|]. do 3 (split; [assumption|]).
  pose proof (fun w => wave_range w) as WR.
  pose proof (mix_near _ _ M m _ _ N1 N2 Q1 ltac:(lra) ltac:(lra) (WR _)) as Z1.
  pose proof (mix_near _ _ M m _ _ N1 N2 Q2 ltac:(lra) ltac:(lra) (WR _)) as Z2.
  pose proof (mix_near _ _ M m _ _ N1 N2 Q3 ltac:(lra) ltac:(lra) (WR _)) as Z3.
  rewrite W1 in Z1. rewrite W2 in Z2. rewrite W3 in Z3.
  split; [|split]; unfold near in *; lra.
Qed.
