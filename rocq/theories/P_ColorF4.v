(** * P_ColorF4: the colour conversions on samples, 8-bit values and pictures *)
Require Import ZArith QArith Bool Reals Lra Lia List Psatz.
Require Import Flocq.Core.Core Flocq.IEEE754.BinarySingleNaN.
Require Import Verif.M_Base Verif.M_Params Verif.M_Buffer Verif.M_Image Verif.M_Float Verif.M_Binary32 Verif.M_Color Verif.M_ColorF
  Verif.S_Image Verif.S_ColorF Verif.P_Base Verif.P_Image Verif.P_Float Verif.P_Binary32 Verif.P_ColorF Verif.P_ColorF2 Verif.P_ColorF3.
Import ListNotations.
Open Scope R_scope.
Local Opaque u32.

Lemma colour_round_trip r g b : is_finite r = true -> is_finite g = true -> is_finite b = true ->
  0 <= B2R r <= 1 -> 0 <= B2R g <= 1 -> 0 <= B2R b <= 1 ->
  let '(h, s, l) := rgb_to_hsl32 r g b in
  let '(r', g', b') := hsl_to_rgb32 h s l in
  (is_finite h = true /\ is_finite s = true /\ is_finite l = true /\
   0 <= B2R h <= 1 /\ 0 <= B2R s <= 1001 / 1000 /\ 0 <= B2R l <= 1) /\
  (is_finite r' = true /\ is_finite g' = true /\ is_finite b' = true) /\
  Rabs (B2R r' - B2R r) <= 1001 / 10 ^ 6 /\ Rabs (B2R g' - B2R g) <= 1001 / 10 ^ 6 /\ Rabs (B2R b' - B2R b) <= 1001 / 10 ^ 6.
Proof.
  intros Fr Fg Fb Hr Hg Hb. pose proof (colour_cases r g b Fr Fg Fb Hr Hg Hb) as K. cbv zeta in K.
  pose proof (max3_min3 (B2R r) (B2R g) (B2R b)) as MM. cbv zeta in MM. pose proof u32_range as U.
  destruct c001_val as (_ & C3). destruct c0001_val as (_ & C4).
  destruct (rgb_to_hsl32 r g b) as ((h & s) & l). destruct (hsl_to_rgb32 h s l) as ((r' & g') & b').
  destruct K as (K0 & [(_ & D & -> & -> & ->)|(_ & F1 & F2 & F3 & N1 & N2 & N3)]); (split; [exact K0|]).
  - split; [auto|]. repeat split; apply Rabs_le; lra.
  - split; [auto|].
    destruct (close_cases r g b r) as [(E1 & L1)|(E1 & L1)]; auto; [lra| |];
      (destruct (close_cases r g b g) as [(E2 & L2)|(E2 & L2)]; auto; [lra| |]); rewrite ?E1, ?E2 in *;
      repeat split; apply Rabs_le; unfold near in *; lra.
Qed.

Lemma colour_sharp r g b : is_finite r = true -> is_finite g = true -> is_finite b = true ->
  0 <= B2R r <= 1 -> 0 <= B2R g <= 1 -> 0 <= B2R b <= 1 ->
  let M := Rmax (Rmax (B2R r) (B2R g)) (B2R b) in
  1001 / 10 ^ 6 <= M - Rmin (Rmin (B2R r) (B2R g)) (B2R b) ->
  let '(h, s, l) := rgb_to_hsl32 r g b in
  let '(r', g', b') := hsl_to_rgb32 h s l in
  (Rabs (B2R r' - B2R r) <= 12 / 10 ^ 5 /\ Rabs (B2R g' - B2R g) <= 12 / 10 ^ 5 /\ Rabs (B2R b' - B2R b) <= 12 / 10 ^ 5) /\
  ((B2R r = M \/ 101 / 10 ^ 6 <= M - B2R r) -> (B2R g = M \/ 101 / 10 ^ 6 <= M - B2R g) ->
   Rabs (B2R r' - B2R r) <= 12 / 10 ^ 6 /\ Rabs (B2R g' - B2R g) <= 12 / 10 ^ 6 /\ Rabs (B2R b' - B2R b) <= 12 / 10 ^ 6).
Proof.
  intros Fr Fg Fb Hr Hg Hb M. pose proof (colour_cases r g b Fr Fg Fb Hr Hg Hb) as K. cbv zeta in K.
  pose proof (max3_min3 (B2R r) (B2R g) (B2R b)) as MM. cbv zeta in MM. pose proof u32_range as U.
  destruct c001_val as (_ & C3). destruct c0001_val as (_ & C4).
  fold (max3 (B2R r) (B2R g) (B2R b)) in M. fold (min3 (B2R r) (B2R g) (B2R b)). fold M in K, MM. intros HD.
  destruct (rgb_to_hsl32 r g b) as ((h & s) & l). destruct (hsl_to_rgb32 h s l) as ((r' & g') & b').
  destruct K as (K0 & [(_ & D & _)|(_ & F1 & F2 & F3 & N1 & N2 & N3)]); [lra|].
  destruct (close_cases r g b r) as [(E1 & L1)|(E1 & L1)]; auto; [fold M; lra| |]; fold M in L1;
      (destruct (close_cases r g b g) as [(E2 & L2)|(E2 & L2)]; auto; [fold M; lra| |]); fold M in L2; rewrite ?E1, ?E2 in *;
      (split; [|intros A1 A2; destruct A1 as [A1|A1]; destruct A2 as [A2|A2]]);
      repeat split; apply Rabs_le; unfold near in *; lra.
Qed.

(** ** 8-bit values *)
Lemma level_near z x : (0 <= z <= 255)%Z -> is_finite x = true -> near (125 * u32) (B2R x) (IZR z / 255) ->
  (to_pixel x = z \/ to_pixel x = z - 1)%Z.
Proof.
  intros Hz F N. pose proof u32_range as U. destruct (to_pixel_val x) as (-> & B). rewrite clamp_val in * by auto.
  assert (Hz' : 0 <= IZR z <= 255) by (split; [apply (IZR_le 0)|apply (IZR_le z 255)]; lia).
  set (y := Rmax 0 (Rmin 1 (B2R x))) in *.
  assert (NY : near (125 * u32) y (IZR z / 255)).
  { unfold y, near, Rmax, Rmin in *. repeat destruct (Rle_dec _ _); lra. }
  assert (E : (Rabs (r32 (y * 255) - y * 255) <= bpow radix2 (8 - 24))%R).
  { apply r32_err; [|lia]. apply Rabs_le. cbn. unfold near in *. lra. }
  apply Rabs_le_inv in E. assert (P : bpow radix2 (8 - 24) <= 1 / 10000) by (cbn; lra).
  assert (L : IZR z - 1 / 100 <= r32 (y * 255) <= IZR z + 1 / 100) by (unfold near in *; lra).
  pose proof (Zfloor_lb (r32 (y * 255))) as L1. pose proof (Zfloor_ub (r32 (y * 255))) as L2.
  assert (z - 1 < Zfloor (r32 (y * 255)) + 1)%Z by (apply lt_IZR; rewrite minus_IZR, plus_IZR; lra).
  assert (Zfloor (r32 (y * 255)) < z + 1)%Z by (apply lt_IZR; rewrite plus_IZR; lra).
  lia.
Qed.
Lemma level z : (0 <= z <= 255)%Z -> is_finite (of_pixel z) = true /\ 0 <= B2R (of_pixel z) <= 1 /\ near (2 * u32) (B2R (of_pixel z)) (IZR z / 255).
Proof.
  intros H. destruct (of_pixel_close z H) as (F & B & N). split; [auto|]. split; [auto|]. apply near_abs.
  eapply Rle_trans; [exact N|]. Local Transparent u32. unfold u32.
  assert (bpow radix2 (-53) <= bpow radix2 (-24)) by (apply bpow_le; lia). lra.
Qed.
Local Opaque u32.
Lemma levels_apart a b : (0 <= a <= 255)%Z -> (0 <= b <= 255)%Z -> B2R (of_pixel a) - B2R (of_pixel b) < 1 / 500 -> B2R (of_pixel b) - B2R (of_pixel a) < 1 / 500 -> a = b.
Proof.
  intros Ha Hb L1 L2. destruct (level a Ha) as (_ & _ & Na). destruct (level b Hb) as (_ & _ & Nb). pose proof u32_range as U.
  unfold near in *. assert (a - b < 1)%Z by (apply lt_IZR; rewrite minus_IZR; lra). assert (b - a < 1)%Z by (apply lt_IZR; rewrite minus_IZR; lra). lia.
Qed.
Lemma pixel_hsl a b c : (0 <= a <= 255)%Z -> (0 <= b <= 255)%Z -> (0 <= c <= 255)%Z ->
  let '(r', g', b') := through_hsl rgb_to_hsl32 hsl_to_rgb32 (of_pixel a) (of_pixel b) (of_pixel c) in
  same_or_below a (to_pixel r') /\ same_or_below b (to_pixel g') /\ same_or_below c (to_pixel b').
Proof.
  intros Ha Hb Hc. destruct (level a Ha) as (Fa & Ba & Na). destruct (level b Hb) as (Fb & Bb & Nb). destruct (level c Hc) as (Fc & Bc & Nc).
  pose proof (levels_apart a b Ha Hb) as Aab. pose proof (levels_apart a c Ha Hc) as Aac. pose proof (levels_apart b c Hb Hc) as Abc.
  unfold through_hsl. pose proof (colour_cases _ _ _ Fa Fb Fc Ba Bb Bc) as K. cbv zeta in K.
  pose proof (max3_min3 (B2R (of_pixel a)) (B2R (of_pixel b)) (B2R (of_pixel c))) as MM. cbv zeta in MM.
  set (M := max3 _ _ _) in *. set (m := min3 _ _ _) in *. pose proof u32_range as U.
  destruct c001_val as (_ & C3). destruct c0001_val as (_ & C4).
  destruct (rgb_to_hsl32 _ _ _) as ((h & s) & l). destruct (hsl_to_rgb32 h s l) as ((r' & g') & b').
  destruct K as (_ & [(_ & D & -> & -> & ->)|(_ & F1 & F2 & F3 & N1 & N2 & N3)]).
  - assert (a = b) by (apply Aab; lra). assert (a = c) by (apply Aac; lra). subst b c. rewrite pixel_back by auto. unfold same_or_below. auto.
  - assert (E1 : (if close_max (of_pixel a) (of_pixel b) (of_pixel c) (of_pixel a) then M else B2R (of_pixel a)) = B2R (of_pixel a)).
    { destruct (close_cases (of_pixel a) (of_pixel b) (of_pixel c) (of_pixel a)) as [(-> & L)|(-> & L)]; auto; [fold M; lra|]. fold M in L.
      destruct MM as (Q1 & Q2 & Q3 & [E|[E|E]] & _); auto; rewrite E; [rewrite Aab by lra|rewrite Aac by lra]; reflexivity. }
    assert (E2 : (if close_max (of_pixel a) (of_pixel b) (of_pixel c) (of_pixel b) then M else B2R (of_pixel b)) = B2R (of_pixel b)).
    { destruct (close_cases (of_pixel a) (of_pixel b) (of_pixel c) (of_pixel b)) as [(-> & L)|(-> & L)]; auto; [fold M; lra|]. fold M in L.
      destruct MM as (Q1 & Q2 & Q3 & [E|[E|E]] & _); auto; rewrite E; [rewrite Aab by lra|rewrite Abc by lra]; reflexivity. }
    rewrite E1 in N1. rewrite E2 in N2. 
    assert (N2' : near (120 * u32) (B2R g') (B2R (of_pixel b))) by (destruct (close_max _ _ _ (of_pixel a)); exact N2).
    repeat split; apply level_near; auto; unfold near in *; lra.
Qed.

(** ** pictures *)
Section Pictures.
Open Scope nat_scope.
Context {T : Type} (lib : jpeg) (to_px : T -> Z) (of_px : Z -> T) (quality : Z) (f g : T -> T -> T -> T * T * T).
Definition via (a b c : T) : T * T * T := let '(h, s, l) := f a b c in g h s l.
Lemma hsl_picture blob (image : list (mat T)) start img :
  blob <> [] -> jload lib blob = Some img -> cimg_wf img -> cspectrum img = 3 -> cwidth img <> 0 -> cheight img <> 0 -> Forall mwf image ->
  exists image' img' size, hsl_decode lib of_px f blob image start = Ok (true, image') /\
    hsl_encode lib to_px quality g image' start = (let* bytes := jsave lib img' size quality in Ok (Some bytes)) /\
    cwidth img' = cwidth img /\ cheight img' = cheight img /\ cspectrum img' = 3 /\ cimg_wf img' /\
    forall x y, x < cwidth img -> y < cheight img -> exists u v w,
      pixel img x y 0 = Some u /\ pixel img x y 1 = Some v /\ pixel img x y 2 = Some w /\
      let '(r, g, b) := via (of_px u) (of_px v) (of_px w) in
      pixel img' x y 0 = Some (to_px r) /\ pixel img' x y 1 = Some (to_px g) /\ pixel img' x y 2 = Some (to_px b).
Proof.
  intros Hb Hl W Hs Hw Hh WI. destruct (hsl_decode_ok lib of_px f blob image start img Hb Hl W ltac:(lia)) as (mid & image' & (D1 & D2 & D3 & D4) & P & E).
  assert (Wm : Forall mwf mid).
  { apply Forall_forall. intros m Hm. apply In_nth_error in Hm as (i & Hi). rewrite Forall_forall in WI.
    assert (Li : i < length mid) by (apply nth_error_Some; congruence).
    destruct (le_lt_dec start i) as [L|L]; [destruct (le_lt_dec (start + 3) i) as [L2|L2]|].
    - rewrite D2 in Hi by lia. apply WI. eapply nth_error_In; eauto.
    - destruct (D4 (i - start) ltac:(lia)) as (m' & N & G & _). replace (start + (i - start)) with i in N by lia. assert (m' = m) by congruence. subst. exact G.
    - destruct (le_lt_dec (length image) i) as [L2|L2]; [rewrite D3 in Hi by lia; injection Hi as <-; reflexivity|].
      rewrite D2 in Hi by lia. apply WI. eapply nth_error_In; eauto. }
  assert (Em : encodable 3 mid start).
  { exists (cheight img), (cwidth img). split; [auto|]. split; [auto|]. intros k Hk. destruct (D4 k Hk) as (m & N & _ & R & C & _). eauto. }
  destruct (pixelwise_encodable f mid image' start Wm Em P) as (E' & W').
  destruct (proj2 (hsl_encode_when lib to_px quality g image' start W') E') as (copy & img' & size & P' & (S1 & S2 & S3) & EE).
  exists image', img', size. split; [exact E|]. split; [exact EE|].
  destruct P as (_ & _ & a & b & c & a1 & b1 & c1 & Na & Nb & Nc & Na1 & Nb1 & Nc1 & F1 & V1).
  destruct P' as (_ & _ & a1' & b1' & c1' & a2 & b2 & c2 & Na1' & Nb1' & Nc1' & Na2 & Nb2 & Nc2 & F2 & V2).
  assert (a1' = a1) by congruence. assert (b1' = b1) by congruence. assert (c1' = c1) by congruence. subst a1' b1' c1'.
  inversion F1 as [|? ? (_ & Ra1 & Ca1) _]; subst. inversion F2 as [|? ? (_ & Ra2 & Ca2) _]; subst.
  destruct (D4 0 ltac:(lia)) as (a0 & Na0 & _ & R0 & C0 & G0). destruct (D4 1 ltac:(lia)) as (b0 & Nb0 & _ & _ & _ & G1).
  destruct (D4 2 ltac:(lia)) as (c0 & Nc0 & _ & _ & _ & G2). rewrite Nat.add_0_r in Na0.
  assert (a0 = a) by congruence. assert (b0 = b) by congruence. assert (c0 = c) by congruence. subst a0 b0 c0.
  destruct (S3 0 ltac:(lia)) as (a3 & Na3 & Ra3 & Ca3 & H0). destruct (S3 1 ltac:(lia)) as (b3 & Nb3 & Rb3 & Cb3 & H1).
  destruct (S3 2 ltac:(lia)) as (c3 & Nc3 & Rc3 & Cc3 & H2). rewrite Nat.add_0_r in Na3.
  assert (a3 = a2) by congruence. assert (b3 = b2) by congruence. assert (c3 = c2) by congruence. subst a3 b3 c3.
  split; [congruence|]. split; [congruence|]. split; [exact S1|]. split; [exact S2|].
  intros x y Hx Hy.
  destruct (G0 x y Hx Hy) as (u & Pu & Mu). destruct (G1 x y Hx Hy) as (v & Pv & Mv). destruct (G2 x y Hx Hy) as (w & Pw & Mw).
  exists u, v, w. split; [auto|]. split; [auto|]. split; [auto|].
  destruct (V1 y x ltac:(lia) ltac:(lia)) as (u1 & v1 & w1 & Q1 & Q2 & Q3 & Q4 & Q5 & Q6).
  assert (u1 = of_px u) by congruence. assert (v1 = of_px v) by congruence. assert (w1 = of_px w) by congruence. subst u1 v1 w1.
  destruct (V2 y x ltac:(lia) ltac:(lia)) as (u1 & v1 & w1 & Q1' & Q2' & Q3' & Q4' & Q5' & Q6').
  unfold via. destruct (f (of_px u) (of_px v) (of_px w)) as ((h & s) & l). cbn [fst snd] in *.
  assert (u1 = h) by congruence. assert (v1 = s) by congruence. assert (w1 = l) by congruence. subst u1 v1 w1.
  destruct (g h s l) as ((r' & g') & b'). cbn [fst snd] in *.
  destruct (H0 x y ltac:(lia) ltac:(lia)) as (r2 & M0 & P0). destruct (H1 x y ltac:(lia) ltac:(lia)) as (g2 & M1 & P1). destruct (H2 x y ltac:(lia) ltac:(lia)) as (b2' & M2 & P2).
  assert (r2 = r') by congruence. assert (g2 = g') by congruence. assert (b2' = b') by congruence. subst. auto.
Qed.
End Pictures.

Lemma Forall2_by_nth {X Y} (R : X -> Y -> Prop) l l' : length l = length l' ->
  (forall i u v, nth_error l i = Some u -> nth_error l' i = Some v -> R u v) -> Forall2 R l l'.
Proof.
  revert l'. induction l as [|x l IH]; intros [|y l'] HL H; try discriminate; constructor.
  - apply (H 0%nat); reflexivity.
  - apply IH; [cbn in HL; lia|]. intros i. apply (H (S i)).
Qed.

Lemma hsl_picture_levels lib quality blob (image : list (mat f32)) start img :
  blob <> [] -> jload lib blob = Some img -> cimg_wf img -> cspectrum img = 3%nat -> cwidth img <> 0%nat -> cheight img <> 0%nat -> Forall mwf image ->
  Forall (fun z => 0 <= z <= 255)%Z (cpixels img) ->
  exists image' img' size, hsl_decode lib of_pixel rgb_to_hsl32 blob image start = Ok (true, image') /\
    hsl_encode lib to_pixel quality hsl_to_rgb32 image' start = (let* bytes := jsave lib img' size quality in Ok (Some bytes)) /\
    cwidth img' = cwidth img /\ cheight img' = cheight img /\ cspectrum img' = 3%nat /\ cimg_wf img' /\
    Forall2 same_or_below (cpixels img) (cpixels img').
Proof.
  intros H1 H2 W H4 H5 H6 H7 H8. destruct (hsl_picture lib to_pixel of_pixel quality rgb_to_hsl32 hsl_to_rgb32 blob image start img H1 H2 W H4 H5 H6 H7)
    as (image' & img' & size & E1 & E2 & Ew & Eh & Es & W' & P). exists image', img', size. repeat (split; [assumption|]).
  set (n := (cwidth img * cheight img)%nat) in *. unfold cimg_wf in W, W'. rewrite Es, Ew, Eh in W'. rewrite H4 in W. fold n in W, W'.
  apply Forall2_by_nth; [lia|].
  intros i u v Hu Hv. assert (Hi : (i < 3 * n)%nat) by (rewrite <- W; apply nth_error_Some; congruence).
  assert (In u (cpixels img)) as Iu by (eapply nth_error_In; eauto).
  destruct (idx_inv i 3 n Hi) as (Q1 & Q2 & Hx).
  destruct (idx_inv (i mod n) (cheight img) (cwidth img)) as (Q3 & Q4 & Hy); [unfold n in *; lia|].
  destruct (P (i mod n mod cwidth img)%nat (i mod n / cwidth img)%nat Q4 Q3) as (p0 & p1 & p2 & P0 & P1 & P2 & K).
  rewrite Forall_forall in H8.
  assert (R0 : (0 <= p0 <= 255)%Z) by (apply H8; eapply nth_error_In; exact P0).
  assert (R1 : (0 <= p1 <= 255)%Z) by (apply H8; eapply nth_error_In; exact P1).
  assert (R2 : (0 <= p2 <= 255)%Z) by (apply H8; eapply nth_error_In; exact P2).
  pose proof (pixel_hsl p0 p1 p2 R0 R1 R2) as L. unfold through_hsl in L. unfold via in K.
  destruct (rgb_to_hsl32 (of_pixel p0) (of_pixel p1) (of_pixel p2)) as ((h & s) & l). destruct (hsl_to_rgb32 h s l) as ((r' & g') & b').
  destruct K as (K0 & K1 & K2). destruct L as (L0 & L1 & L2).
  unfold pixel in P0, P1, P2, K0, K1, K2. rewrite Ew, Eh in K0, K1, K2. fold n in P0, P1, P2, K0, K1, K2.
  rewrite <- Nat.add_assoc, <- Hy in P0, P1, P2, K0, K1, K2.
  assert (Q : (i / n = 0 \/ i / n = 1 \/ i / n = 2)%nat) by lia. destruct Q as [Q|[Q|Q]]; rewrite Q in Hx; rewrite <- Hx in *.
  - assert (p0 = u) by congruence. assert (to_pixel r' = v) by congruence. subst. auto.
  - assert (p1 = u) by congruence. assert (to_pixel g' = v) by congruence. subst. auto.
  - assert (p2 = u) by congruence. assert (to_pixel b' = v) by congruence. subst. auto.
Qed.

(** ** several passes *)
Lemma passes_levels n a b c : (0 <= a <= 255)%Z -> (0 <= b <= 255)%Z -> (0 <= c <= 255)%Z ->
  let '(a', b', c') := passes n (a, b, c) in
  (Z.max 0 (a - Z.of_nat n) <= a' <= a /\ Z.max 0 (b - Z.of_nat n) <= b' <= b /\ Z.max 0 (c - Z.of_nat n) <= c' <= c)%Z.
Proof.
  intros Ha Hb Hc. induction n as [|n IH]; [cbn; lia|].
  cbn [passes]. destruct (passes n (a, b, c)) as ((a1 & b1) & c1).
  unfold pass. pose proof (pixel_hsl a1 b1 c1 ltac:(lia) ltac:(lia) ltac:(lia)) as K.
  destruct (through_hsl _ _ _ _ _) as ((r' & g') & b'). unfold same_or_below in K.
  pose proof (to_pixel_range r'). pose proof (to_pixel_range g'). pose proof (to_pixel_range b'). cbv iota beta in *. rewrite Nat2Z.inj_succ. lia.
Qed.
Lemma grey_fixed r g b : is_finite r = true -> 0 <= B2R r <= 1 -> g = r -> b = r -> through_hsl rgb_to_hsl32 hsl_to_rgb32 r g b = (r, r, r).
Proof.
  intros F H -> ->. pose proof (colour_cases r r r F F F H H H) as K. cbv zeta in K. unfold through_hsl.
  destruct (rgb_to_hsl32 r r r) as ((h & s) & l). destruct (hsl_to_rgb32 h s l) as ((r' & g') & b').
  destruct K as (_ & [(_ & _ & -> & -> & ->)|(E & _)]); [reflexivity|].
  destruct (grey_cases r r r F F F H H H) as [(E' & _)|(_ & D)]; [congruence|].
  exfalso. destruct (max3f_val r r r F F F) as (FM & VM). destruct (min3f_val r r r F F F) as (Fm & Vm).
  assert (EM : max3 (B2R r) (B2R r) (B2R r) = B2R r) by (unfold max3, Rmax; repeat destruct (Rle_dec _ _); reflexivity).
  assert (Em : min3 (B2R r) (B2R r) (B2R r) = B2R r) by (unfold min3, Rmin; repeat destruct (Rle_dec _ _); reflexivity).
  rewrite EM in VM. rewrite Em in Vm.
  destruct (diff_val (max3f r r r) (min3f r r r)) as (_ & V); auto; rewrite ?VM, ?Vm; try lra.
  rewrite V, VM, Vm in D. rewrite Rminus_diag_eq in D by reflexivity.
  rewrite (fix_int 0 ltac:(lia)) in D. destruct c001_val. lra.
Qed.
