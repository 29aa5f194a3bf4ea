(** * P_Color *)
Require Import Reals Lra Psatz.
Require Import Verif.M_Color.
Open Scope R_scope.

Definition unit (x : R) : Prop := 0 <= x <= 1.

Lemma max3_cases r g b : (max3 r g b = r \/ max3 r g b = g \/ max3 r g b = b) /\
  r <= max3 r g b /\ g <= max3 r g b /\ b <= max3 r g b.
Proof. unfold max3, Rmax. repeat destruct (Rle_dec _ _); repeat split; auto; lra. Qed.
Lemma min3_cases r g b : (min3 r g b = r \/ min3 r g b = g \/ min3 r g b = b) /\
  min3 r g b <= r /\ min3 r g b <= g /\ min3 r g b <= b.
Proof. unfold min3, Rmin. repeat destruct (Rle_dec _ _); repeat split; auto; lra. Qed.

Lemma div_eq a d : d <> 0 -> exists q, a / d = q /\ q * d = a.
Proof. intros. exists (a / d). split; auto. field. auto. Qed.

(** chroma: temp1 and temp2 of HSLToRGB are the largest and the smallest component *)
Lemma temps M m : 0 <= m -> M <= 1 -> 1 / 1000 <= M - m ->
  let l := (M + m) / 2 in
  let s := if Rlt_dec l (1 / 2) then (M - m) / (M + m) else (M - m) / (2 - (M + m)) in
  1 / 1000 <= s <= 1 /\ (if Rlt_dec l (1 / 2) then l * (1 + s) else (l + s) - l * s) = M.
Proof.
  intros Hm HM Hd l s. subst s. unfold l. destruct (Rlt_dec ((M + m) / 2) (1 / 2)) as [H|H].
  - destruct (div_eq (M - m) (M + m)) as (q & -> & Hq); [lra|]. split; nra.
  - destruct (div_eq (M - m) (2 - (M + m))) as (q & -> & Hq); [lra|]. split; nra.
Qed.

(** a component comes back, or it was within 0.0001 of the largest and becomes that *)
Definition kept (M x x' : R) : Prop := x' = x \/ (M - x < 1 / 10000 /\ x' = M).
Ltac fin := solve [lra | nra | left; lra | left; nra | right; split; lra].

Lemma rgb_hsl_kept r g b : unit r -> unit g -> unit b -> 1 / 1000 <= max3 r g b - min3 r g b ->
  let '(h, s, l) := rgb_to_hsl r g b in
  let '(r', g', b') := hsl_to_rgb h s l in
  unit h /\ 1 / 1000 <= s <= 1 /\ unit l /\
  kept (max3 r g b) r r' /\ kept (max3 r g b) g g' /\ b' = b.
Proof.
  unfold unit. intros Hr Hg Hb. unfold rgb_to_hsl.
  destruct (max3_cases r g b) as (XM & XR & XG & XB). destruct (min3_cases r g b) as (YM & YR & YG & YB).
  set (M := max3 r g b) in *. set (m := min3 r g b) in *. clearbody M m. intros Hd0.
  rewrite (Rabs_right (M - m)) by lra. destruct (Rlt_dec (M - m) (1 / 1000)) as [Hd|Hd]; [lra|].
  pose proof (temps M m ltac:(lra) ltac:(lra) ltac:(lra)) as HT. cbv zeta in HT.
  set (s := if Rlt_dec ((M + m) / 2) (1 / 2) then (M - m) / (M + m) else (M - m) / (2 - (M + m))) in *. clearbody s.
  destruct HT as (Hs & HT). unfold hsl_to_rgb. rewrite (Rabs_right s) by lra.
  destruct (Rlt_dec s (1 / 10000)); [lra|].
  rewrite HT. replace (2 * ((M + m) / 2) - M) with m by lra.
  match goal with |- context [Rlt_dec 1 (?h + _)] => set (h0 := h) end.
  assert (K : unit h0 /\ let tr := if Rlt_dec 1 (h0 + 1 / 3) then h0 + 1 / 3 - 1 else h0 + 1 / 3 in
      let tb := if Rlt_dec (h0 - 1 / 3) 0 then h0 - 1 / 3 + 1 else h0 - 1 / 3 in
      kept M r (component M m tr) /\ kept M g (component M m h0) /\ component M m tb = b).
    { subst h0. unfold unit, kept. clear Hs HT s n. rewrite !(Rabs_right (M - _)) by lra.
      assert (E : M - m <> 0) by lra.
      destruct (Rlt_dec (M - r) (1 / 10000)) as [Cr|Cr].
      - destruct (div_eq (g - b) (M - m) E) as (q & -> & Hq).
        assert (-1 <= q <= 1) by nra.
        assert (YM' : m = g \/ m = b) by (destruct YM as [->|?]; [lra|auto]).
        unfold fold_hue. destruct (Rlt_dec (q / 6) 0) as [Q|Q]; (split; [lra|]).
        + destruct (Rlt_dec 1 _); [|lra]. destruct (Rlt_dec _ 0); [lra|].
          assert (m = g) by (destruct YM' as [->| ->]; nra).
          repeat split.
          * unfold component. destruct (Rlt_dec _ (1 / 6)); [lra|]. destruct (Rlt_dec _ (1 / 2)); [|lra].
            fin.
          * unfold component. destruct (Rlt_dec _ (1 / 6)); [lra|]. destruct (Rlt_dec _ (1 / 2)); [lra|].
            destruct (Rlt_dec _ (2 / 3)); [lra|]. fin.
          * unfold component. destruct (Rlt_dec _ (1 / 6)); [lra|]. destruct (Rlt_dec _ (1 / 2)); [lra|].
            destruct (Rlt_dec _ (2 / 3)); fin.
        + assert (m = b \/ q = 0) by (destruct YM' as [->| ->]; [right; nra|auto]).
          destruct (Rlt_dec 1 _); [lra|]. destruct (Rlt_dec _ 0); [|lra].
          repeat split.
          * unfold component. destruct (Rlt_dec _ (1 / 6)); [lra|]. destruct (Rlt_dec _ (1 / 2)); [fin|].
            destruct (Rlt_dec _ (2 / 3)); [|lra]. assert (q = 1) by lra. subst q. fin.
          * unfold component. destruct (Rlt_dec _ (1 / 6)); [|destruct (Rlt_dec _ (1 / 2)); [|lra]].
            -- destruct H0; [|try subst q]; fin.
            -- assert (q = 1) by lra. subst q. fin.
          * unfold component. destruct (Rlt_dec _ (1 / 6)); [lra|]. destruct (Rlt_dec _ (1 / 2)); [lra|].
            destruct (Rlt_dec _ (2 / 3)); [lra|]. destruct H0; [|subst q]; fin.
      - destruct (Rlt_dec (M - g) (1 / 10000)) as [Cg|Cg].
        + destruct (div_eq (b - r) (M - m) E) as (q & -> & Hq). assert (-1 <= q <= 1) by nra.
          assert (YM' : m = r \/ m = b) by (destruct YM as [? | [-> | ?]]; [auto|lra|auto]).
          unfold fold_hue. destruct (Rlt_dec ((2 + q) / 6) 0) as [Q|_]; [lra|]. split; [lra|].
          destruct (Rlt_dec 1 _); [lra|].
          destruct (Rlt_dec q 0) as [Q|Q].
          * assert (m = b) by (destruct YM' as [->| ->]; nra). destruct (Rlt_dec _ 0); [|lra]. repeat split.
            -- unfold component. destruct (Rlt_dec _ (1 / 6)); [lra|]. destruct (Rlt_dec _ (1 / 2)); [lra|].
               destruct (Rlt_dec _ (2 / 3)); [|lra]. fin.
            -- unfold component. destruct (Rlt_dec _ (1 / 6)); [lra|]. destruct (Rlt_dec _ (1 / 2)); [|lra].
               fin.
            -- unfold component. destruct (Rlt_dec _ (1 / 6)); [lra|]. destruct (Rlt_dec _ (1 / 2)); [lra|].
               destruct (Rlt_dec _ (2 / 3)); [lra|]. fin.
          * assert (m = r \/ q = 0) by (destruct YM' as [->| ->]; [auto|right; nra]).
            destruct (Rlt_dec _ 0); [lra|]. repeat split.
            -- unfold component. destruct (Rlt_dec _ (1 / 6)); [lra|]. destruct (Rlt_dec _ (1 / 2)); [lra|].
               destruct (Rlt_dec _ (2 / 3)); [lra|]. destruct H0; [|subst q]; fin.
            -- unfold component. destruct (Rlt_dec _ (1 / 6)); [lra|]. destruct (Rlt_dec _ (1 / 2)); [fin|].
               destruct (Rlt_dec _ (2 / 3)); [|lra]. assert (q = 1) by lra. subst q. fin.
            -- unfold component. destruct (Rlt_dec _ (1 / 6)); [|destruct (Rlt_dec _ (1 / 2)); [|lra]].
               ++ destruct H0; [|try subst q]; fin.
               ++ assert (q = 1) by lra. subst q. fin.
        + assert (M = b) by (destruct XM as [-> | [-> | ?]]; [lra|lra|auto]). clear XM. subst M.
          destruct (div_eq (r - g) (b - m) E) as (q & -> & Hq). assert (-1 <= q <= 1) by nra.
          assert (YM' : m = r \/ m = g) by (destruct YM as [? | [? | ->]]; [auto|auto|lra]).
          unfold fold_hue. destruct (Rlt_dec ((4 + q) / 6) 0) as [Q|_]; [lra|]. split; [lra|].
          destruct (Rlt_dec _ 0); [lra|].
          destruct (Rlt_dec 0 q) as [Q|Q].
          * assert (m = g) by (destruct YM' as [->| ->]; nra). destruct (Rlt_dec 1 _); [|lra].
            assert (q < 1) by nra. repeat split.
            -- unfold component. destruct (Rlt_dec _ (1 / 6)); [|lra]. fin.
            -- unfold component. destruct (Rlt_dec _ (1 / 6)); [lra|]. destruct (Rlt_dec _ (1 / 2)); [lra|].
               destruct (Rlt_dec _ (2 / 3)); [lra|]. fin.
            -- unfold component. destruct (Rlt_dec _ (1 / 6)); [lra|]. destruct (Rlt_dec _ (1 / 2)); [|lra].
               fin.
          * assert (m = r \/ q = 0) by (destruct YM' as [->| ->]; [auto|right; nra]).
            destruct (Rlt_dec 1 _); [lra|]. repeat split.
            -- unfold component. destruct (Rlt_dec _ (1 / 6)); [lra|]. destruct (Rlt_dec _ (1 / 2)); [lra|].
               destruct (Rlt_dec _ (2 / 3)); [lra|]. destruct H0; [|subst q]; fin.
            -- unfold component. destruct (Rlt_dec _ (1 / 6)); [lra|]. destruct (Rlt_dec _ (1 / 2)); [lra|].
               destruct (Rlt_dec _ (2 / 3)); destruct H0; try subst q; fin.
            -- unfold component. destruct (Rlt_dec _ (1 / 6)); [lra|]. destruct (Rlt_dec _ (1 / 2)); [|lra].
               fin. }
  destruct K as (K1 & K2 & K3 & K4). unfold unit in K1. repeat split; try lra; auto.
Qed.

Lemma rgb_hsl_rgb r g b : unit r -> unit g -> unit b ->
  let '(h, s, l) := rgb_to_hsl r g b in
  let '(r', g', b') := hsl_to_rgb h s l in
  unit h /\ unit s /\ unit l /\
  Rabs (r' - r) < 1 / 1000 /\ Rabs (g' - g) < 1 / 1000 /\ Rabs (b' - b) < 1 / 1000.
Proof.
  intros Hr Hg Hb. pose proof (rgb_hsl_kept r g b Hr Hg Hb) as K.
  destruct (max3_cases r g b) as (XM & XR & XG & XB). destruct (min3_cases r g b) as (YM & YR & YG & YB).
  destruct (Rle_dec (1 / 1000) (max3 r g b - min3 r g b)) as [Hd|Hd].
  - specialize (K Hd). destruct (rgb_to_hsl r g b) as ((h & s) & l). destruct (hsl_to_rgb h s l) as ((r' & g') & b').
    unfold unit, kept in *. destruct K as (K1 & K2 & K3 & K4 & K5 & K6).
    repeat split; try lra; apply Rabs_def1; lra.
  - unfold rgb_to_hsl. unfold unit in *. rewrite (Rabs_right (max3 r g b - min3 r g b)) by lra.
    destruct (Rlt_dec _ _); [|lra]. unfold hsl_to_rgb. rewrite Rabs_R0. destruct (Rlt_dec 0 (1 / 10000)); [|lra].
    repeat split; try lra; apply Rabs_def1; lra.
Qed.

(** a component is the largest, or clearly below it *)
Definition clear_of (M x : R) : Prop := x = M \/ 1 / 10000 <= M - x.

Lemma rgb_hsl_exact r g b : unit r -> unit g -> unit b -> 1 / 1000 <= max3 r g b - min3 r g b ->
  clear_of (max3 r g b) r -> clear_of (max3 r g b) g ->
  let '(h, s, l) := rgb_to_hsl r g b in hsl_to_rgb h s l = (r, g, b).
Proof.
  intros Hr Hg Hb Hd Cr Cg. pose proof (rgb_hsl_kept r g b Hr Hg Hb Hd) as K.
  destruct (rgb_to_hsl r g b) as ((h & s) & l). destruct (hsl_to_rgb h s l) as ((r' & g') & b').
  unfold kept, clear_of in *. destruct K as (_ & _ & _ & K4 & K5 & K6). f_equal; [f_equal|]; lra.
Qed.

Lemma max3_is r g b M : M = r \/ M = g \/ M = b -> r <= M -> g <= M -> b <= M -> max3 r g b = M.
Proof. intros. destruct (max3_cases r g b) as (? & ? & ? & ?). lra. Qed.
Lemma min3_is r g b m : m = r \/ m = g \/ m = b -> m <= r -> m <= g -> m <= b -> min3 r g b = m.
Proof. intros. destruct (min3_cases r g b) as (? & ? & ? & ?). lra. Qed.

(** largest minus smallest component of the colour (s, l) *)
Definition chroma (s l : R) : R := if Rlt_dec l (1 / 2) then 2 * l * s else 2 * (1 - l) * s.

Lemma hue_back M m h r g b : 0 <= h < 1 -> 1 / 1000 <= M - m ->
  r = component M m (if Rlt_dec 1 (h + 1 / 3) then h + 1 / 3 - 1 else h + 1 / 3) ->
  g = component M m h ->
  b = component M m (if Rlt_dec (h - 1 / 3) 0 then h - 1 / 3 + 1 else h - 1 / 3) ->
  max3 r g b = M /\ min3 r g b = m /\
  exists h', Rabs (h' - h) < 1 / 60 /\
    (if Rlt_dec (M - r) (1 / 10000) then fold_hue ((g - b) / (M - m))
     else if Rlt_dec (M - g) (1 / 10000) then fold_hue (2 + (b - r) / (M - m))
     else fold_hue (4 + (r - g) / (M - m))) = h'.
Proof.
  intros Hh HC Er Eg Eb. set (C := M - m) in *. assert (EM : M = m + C) by (unfold C; lra). clearbody C. subst M.
  assert (X : exists x y z, r = m + C * x /\ g = m + C * y /\ b = m + C * z /\
    ((0 <= h < 1/6 /\ x = 1 /\ y = 6 * h /\ z = 0) \/
     (1/6 <= h < 1/3 /\ x = 2 - 6 * h /\ y = 1 /\ z = 0) \/
     (1/3 <= h < 1/2 /\ x = 0 /\ y = 1 /\ z = 6 * h - 2) \/
     (1/2 <= h < 2/3 /\ x = 0 /\ y = 4 - 6 * h /\ z = 1) \/
     (2/3 <= h <= 5/6 /\ x = 6 * h - 4 /\ y = 0 /\ z = 1) \/
     (5/6 < h < 1 /\ x = 1 /\ y = 0 /\ z = 6 - 6 * h))).
  { assert (Q : (0 <= h < 1/6) \/ (1/6 <= h < 1/3) \/ (1/3 <= h < 1/2) \/ (1/2 <= h < 2/3) \/ (2/3 <= h < 5/6) \/ h = 5/6 \/ (5/6 < h < 1)) by lra.
    unfold component in *.
    destruct Q as [Q|[Q|[Q|[Q|[Q|[Q|Q]]]]]];
    repeat match goal with H : context [Rlt_dec ?u ?v] |- _ => destruct (Rlt_dec u v); try lra end;
    subst r g b.
    - exists 1, (6 * h), 0. repeat split; try lra.
    - exists (2 - 6 * h), 1, 0. repeat split; try lra.
    - exists 0, 1, (6 * h - 2). repeat split; try lra.
    - exists 0, (4 - 6 * h), 1. repeat split; try lra.
    - exists (6 * h - 4), 0, 1. repeat split; try lra.
    - exists (6 * h - 4), 0, 1. assert (h = 2/3) by lra. subst h. repeat split; try lra.
    - exists (6 * h - 4), 0, 1. subst h. repeat split; try lra.
    - exists 1, 0, (6 - 6 * h). repeat split; try lra. }
  clear Er Eg Eb. destruct X as (x & y & z & -> & -> & -> & X).
  assert (Hdiv : forall u v, (m + C * u - (m + C * v)) / C = u - v) by (intros; field; lra).
  rewrite !Hdiv.
  replace (m + C - (m + C * x)) with (C * (1 - x)) by ring. replace (m + C - (m + C * y)) with (C * (1 - y)) by ring.
  assert (B : 0 <= x <= 1 /\ 0 <= y <= 1 /\ 0 <= z <= 1) by lra.
  split; [|split].
  - apply max3_is; nra.
  - apply min3_is; nra.
  - eexists. split; [|reflexivity].
    assert (N : forall u, C * (1 - u) < 1 / 10000 -> 1 - u < 1 / 10) by (intros; nra).
    assert (Z1 : forall u, u = 1 -> C * (1 - u) = 0) by (intros u ->; ring).
    assert (Z0 : forall u, u = 0 -> C * (1 - u) = C) by (intros u ->; ring).
    unfold fold_hue.
    destruct (Rlt_dec (C * (1 - x)) (1 / 10000)) as [D|D]; [apply N in D|].
    + destruct (Rlt_dec _ 0); apply Rabs_def1; lra.
    + destruct (Rlt_dec (C * (1 - y)) (1 / 10000)) as [E|E]; [apply N in E|].
      * assert (x <> 1) by (intros F; rewrite (Z1 x F) in D; lra).
        destruct (Rlt_dec _ 0); apply Rabs_def1; lra.
      * assert (x <> 1) by (intros F; rewrite (Z1 x F) in D; lra).
        assert (y <> 1) by (intros F; rewrite (Z1 y F) in E; lra).
        destruct (Rlt_dec _ 0); apply Rabs_def1; lra.
Qed.

Lemma hsl_rgb_hsl h s l : 0 <= h < 1 -> unit s -> unit l -> 1 / 1000 <= chroma s l ->
  let '(r, g, b) := hsl_to_rgb h s l in
  unit r /\ unit g /\ unit b /\
  let '(h', s', l') := rgb_to_hsl r g b in
  Rabs (h' - h) < 1 / 60 /\ s' = s /\ l' = l.
Proof.
  unfold unit, chroma. intros Hh Hs Hl HC. unfold hsl_to_rgb. rewrite (Rabs_right s) by lra.
  destruct (Rlt_dec s (1 / 10000)) as [S0|S0]; [destruct (Rlt_dec l (1 / 2)); nra|].
  set (M := if Rlt_dec l (1 / 2) then l * (1 + s) else (l + s) - l * s).
  set (m := 2 * l - M).
  assert (HM : M - m = (if Rlt_dec l (1 / 2) then 2 * l * s else 2 * (1 - l) * s)).
  { unfold m, M. destruct (Rlt_dec l (1 / 2)); ring. }
  assert (Hm : 0 <= m /\ M <= 1 /\ M + m = 2 * l).
  { unfold m, M. destruct (Rlt_dec l (1 / 2)); repeat split; nra. }
  rewrite <- HM in HC.
  match goal with |- context [rgb_to_hsl ?r0 ?g0 ?b0] => set (r := r0); set (g := g0); set (b := b0) end.
  destruct (hue_back M m h r g b Hh HC eq_refl eq_refl eq_refl) as (EM & Em & h' & Hh' & Eh).
  clearbody r g b.
  destruct (max3_cases r g b) as (XM & XR & XG & XB). destruct (min3_cases r g b) as (YM & YR & YG & YB).
  unfold rgb_to_hsl. rewrite EM, Em in *. rewrite !(Rabs_right (M - _)) by lra.
  destruct (Rlt_dec (M - m) (1 / 1000)); [lra|]. rewrite Eh.
  destruct Hm as (Hm1 & Hm2 & Hm3). rewrite Hm3, HM. replace (2 * l / 2) with l by field.
  repeat split; try lra. destruct (Rlt_dec l (1 / 2)); field; nra.
Qed.

(** h = 1/6 + 1/100: red is 6/100 of the chroma 0.001 below green *)
Lemma hue_not_exact : exists h s l, 0 <= h < 1 /\ unit s /\ unit l /\
  1 / 1000 <= chroma s l /\
  let '(r, g, b) := hsl_to_rgb h s l in fst (fst (rgb_to_hsl r g b)) <> h.
Proof.
  exists (1 / 6 + 1 / 100), (1 / 500), (1 / 4). unfold unit, chroma.
  split; [lra|]. split; [lra|]. split; [lra|]. split; [destruct (Rlt_dec _ _); lra|].
  unfold hsl_to_rgb. rewrite (Rabs_right (1 / 500)) by lra. destruct (Rlt_dec (1 / 500) _); [lra|].
  destruct (Rlt_dec (1 / 4) (1 / 2)); [|lra].
  set (M := 1 / 4 * (1 + 1 / 500)). set (m := 2 * (1 / 4) - M).
  destruct (Rlt_dec 1 _); [lra|]. destruct (Rlt_dec _ 0); [|lra].
  unfold component.
  repeat match goal with |- context [Rlt_dec ?u ?v] =>
    match u with context [M] => fail 1 | context [Rabs] => fail 1 | _ => destruct (Rlt_dec u v); [try lra|try lra] end end.
  set (red := m + (M - m) * _ * 6).
  assert (Er : red = M - (M - m) * 6 / 100) by (unfold red; lra).
  assert (EM : max3 red M m = M) by (apply max3_is; unfold red, m, M; lra).
  assert (Em : min3 red M m = m) by (apply min3_is; unfold red, m, M; lra).
  unfold rgb_to_hsl. rewrite EM, Em. rewrite !Rabs_right by (unfold red, m, M; lra).
  destruct (Rlt_dec (M - m) (1 / 1000)) as [D|D]; [unfold m, M in D; lra|].
  destruct (Rlt_dec (M - red) (1 / 10000)) as [E|E]; [|unfold red, m, M in E; lra].
  cbn [fst]. replace ((M - m) / (M - m)) with 1 by (field; unfold m, M; lra).
  unfold fold_hue. destruct (Rlt_dec _ _); lra.
Qed.
