(** * T_Equal: properties C53, C54, C55, C60 *)
Require Import List Bool Arith ZArith Lia Reals Lra.
Require Import Verif.M_Base Verif.M_Params Verif.M_Buffer Verif.M_Equal Verif.M_Archive Verif.M_Serializer Verif.M_Real.
Require Import Verif.S_Params Verif.S_Buffer Verif.S_Equal Verif.S_Exact Verif.S_Serializer
  Verif.P_Base Verif.P_Impl Verif.P_Api Verif.P_Api2 Verif.P_Equal Verif.P_Archive Verif.P_Serializer Verif.P_Blob.
Import ListNotations.
Open Scope nat_scope.

(** ** C53: which data Decompose takes.  A 2D buffer looks at the number of
    channels and at the shape of the first one; a 1D buffer at the length of
    the first signal. *)
Theorem C53_verdict (T : Type) (A : Arith T) p (b b' : buffer T) data den r :
  accepted p -> bpar b = p -> decompose b data den = Ok (r, b') ->
  (r = true <-> ((is_1d p = false -> Z.of_nat (length data) = signum p) /\ first_fits p data)) /\
  (r = false -> b' = b).
Proof. exact (fun HA => decompose_verdict p HA b data den r b'). Qed.
Print Assumptions C53_verdict.
(** data that fail that test are refused, without an error *)
Theorem C53_refuses (T : Type) (A : Arith T) p (b : buffer T) data den :
  accepted p -> bpar b = p -> data <> [] ->
  ~ ((is_1d p = false -> Z.of_nat (length data) = signum p) /\ first_fits p data) ->
  decompose b data den = Ok (false, b).
Proof. exact (fun HA => decompose_refuses p HA b data den). Qed.
Print Assumptions C53_refuses.
(** 1D: signals beyond the declared number change nothing *)
Theorem C53_extra_ignored (T : Type) (A : Arith T) p (b : buffer T) data extra den :
  accepted p -> bpar b = p -> is_1d p = true -> data <> [] -> (signum p <= Z.of_nat (length data))%Z ->
  decompose b (data ++ extra) den = decompose b data den.
Proof. exact (fun HA => decompose_extra p HA b data extra den). Qed.
Print Assumptions C53_extra_ignored.
(** 1D: too few signals are always an access out of range *)
Theorem C53_missing_undefined (T : Type) (A : Arith T) p (b : buffer T) data den :
  accepted p -> reachable p b -> is_1d p = true -> keeps_shape den ->
  data <> [] -> Forall (shaped p) data -> (Z.of_nat (length data) < signum p)%Z ->
  decompose b data den = UB.
Proof.
  intros HA HR H1 [Hk _] Hd HS Hn. destruct (reachable_weak p b HA HR) as (E1 & E2 & E3).
  apply (decompose_missing p HA); auto.
Qed.
Print Assumptions C53_missing_undefined.
(** "true only if every channel has the declared shape" does not hold *)
Theorem C53_every_channel_checked_refuted (T : Type) (A : Arith T) (x : T) :
  exists p (b b' : buffer T) data, accepted p /\ reachable p b /\ Forall mwf data /\
    Z.of_nat (length data) = signum p /\ decompose b data null_denoiser = Ok (true, b') /\ ~ Forall (shaped p) data.
Proof.
  exists (Params [4; 4]%Z 2 1 1), (Buffer (Params [4; 4]%Z 2 1 1) [repeat mempty 4; repeat mempty 4]).
  eexists. exists [Mat 4 4 (repeat x 16); Mat 2 3 (repeat x 6)].
  split; [|split; [|split; [|split; [|split]]]].
  - unfold accepted, params_rep, legal, u64, i32; cbn [shape signum steps wtype length].
    repeat split; auto; repeat constructor; lia.
  - apply reach_new. vm_compute. reflexivity.
  - repeat constructor.
  - reflexivity.
  - vm_compute. reflexivity.
  - intros H. inversion H as [|? ? _ H1]; subst. inversion H1 as [|? ? (_ & H2 & _) _]; subst. discriminate H2.
Qed.
Print Assumptions C53_every_channel_checked_refuted.
Definition C53_p : params := Params [8]%Z 2 1 1.
Example C53_case (T : Type) (A : Arith T) (x : T) : accepted C53_p /\ is_1d C53_p = true /\
  Forall (shaped C53_p) [mcolvec (repeat x 8)] /\
  exists b : buffer T, reachable C53_p b /\ bpar b = C53_p.
Proof.
  split; [|split; [reflexivity|split]].
  - unfold accepted, C53_p, params_rep, legal, u64, i32; cbn [shape signum steps wtype length].
    repeat split; auto; repeat constructor; lia.
  - constructor; [|constructor]. repeat split.
  - eexists. split; [apply reach_new; vm_compute; reflexivity|reflexivity].
Qed.

(** ** C54: what Compose delivers for a scale factor beyond the steps *)
Theorem C54_beyond_steps (T : Type) (A : Arith T) p (b : buffer T) sf :
  accepted p -> bpar b = p -> Z.of_nat (length (bdec b)) = signum p ->
  (forall ch, In ch (bdec b) -> has_layout p ch) -> (steps p < sf)%Z ->
  exists out, compose b sf = Ok (true, out) /\
    Forall2 (fun ch m => exists a, nth_error ch (nsteps p * bands p) = Some a /\ beyond p (Z.to_nat sf) a m) (bdec b) out.
Proof. exact (fun HA => compose_beyond p HA b sf). Qed.
Print Assumptions C54_beyond_steps.
(** exact arithmetic, DB1: a constant signal comes back too small by the
    factor of the steps that were not done *)
Theorem C54_amplitude p (b b' : buffer R) data v sf :
  accepted p -> wtype p = 1%Z -> reachable p b ->
  (1 <= signum p)%Z -> Z.of_nat (length data) = signum p -> Forall (shaped p) data ->
  decompose b data null_denoiser = Ok (true, b') -> (steps p < sf)%Z ->
  exists out, compose b' sf = Ok (true, out) /\ length out = length data /\
    forall c m o, nth_error data c = Some m -> constant v m -> nth_error out c = Some o ->
      constant (v / (if is_1d p then sqrt 2 else 2) ^ (Z.to_nat sf - nsteps p)) o.
Proof. exact (fun HA => beyond_amplitude p HA b b' data v sf). Qed.
Print Assumptions C54_amplitude.
(** so neither refusal, nor the size, nor the amplitude can be relied on *)
Theorem C54_refused_or_right_refuted :
  exists p (b b' : buffer R) data sf out, accepted p /\ reachable p b /\ Forall (shaped p) data /\
    Forall (constant 1) data /\
    decompose b data null_denoiser = Ok (true, b') /\ (0 <= sf < 2 ^ 31)%Z /\
    compose b' sf = Ok (true, out) /\
    exists o, In o out /\ ~ constant 1 o /\ rows o <> drows p / 2 ^ Z.to_nat sf.
Proof.
  set (p := Params [2]%Z 1 1 1). set (m := mcolvec [1; 1]%R).
  assert (HA : accepted p).
  { unfold accepted, p, params_rep, legal, u64, i32; cbn [shape signum steps wtype length].
    repeat split; auto; repeat constructor; lia. }
  assert (HR : exists b : buffer R, reachable p b) by (eexists; apply reach_new; vm_compute; reflexivity).
  destruct HR as (b & HR).
  assert (HS : Forall (shaped p) [m]) by (constructor; [repeat split|constructor]).
  destruct (layout_after_decompose p b [m] null_denoiser HA HR P_Exact.null_keeps ltac:(cbn; lia) eq_refl HS)
    as (b' & HD & HL & HLay).
  destruct (C54_amplitude p b b' [m] 1 2 HA eq_refl HR ltac:(cbn; lia) eq_refl HS HD ltac:(cbn; lia)) as (out & E & El & Ho).
  destruct (reachable_weak p b' HA) as (Eb & _).
  { eapply reach_decompose; [exact HR| |apply P_Exact.null_keeps|exact HD]. repeat constructor. }
  rewrite Forall_forall in HLay.
  destruct (C54_beyond_steps R exactR p b' 2 HA Eb HL HLay ltac:(cbn; lia)) as (out' & E' & F).
  rewrite E in E'. assert (out' = out) by congruence. subst out'. clear E'.
  destruct out as [|o [|? ?]]; try discriminate. inversion F as [|ch ? dec ? Hx Hy He]; subst. 
  destruct Hx as (a & Ha & Hb). 
  assert (Eo : o = Mat (rows a) (cols a) (map (ascale 1 2) (elts a))) by exact Hb. clear Hb.
  destruct (HLay ch) as (_ & _ & Hs); [rewrite <- He; left; auto|].
  destruct (Hs a Ha) as (W & Ra & Ca).
  assert (Ra' : rows a = 1) by exact Ra. assert (Ca' : cols a = 1) by exact Ca. clear Ra Ca. rename Ra' into Ra, Ca' into Ca. subst o.
  exists p, b, b', [m], 2%Z. eexists. split; [auto|]. split; [auto|]. split; [auto|].
  split; [constructor; [repeat constructor|constructor]|]. split; [auto|]. split; [lia|]. split; [exact E|].
  eexists. split; [left; reflexivity|]. split.
  - intros HC. specialize (Ho 0 m _ eq_refl ltac:(repeat constructor) eq_refl). unfold constant in *. cbn [elts] in *.
    unfold mwf in W. rewrite Ra, Ca in W. destruct (elts a) as [|x [|? ?]]; try discriminate.
    cbn [map] in *. inversion HC as [|? ? H1 _]; subst. inversion Ho as [|? ? H2 _]; subst. rewrite H1 in H2.
    assert (H3 : (1 = 1 / (sqrt 2 * 1))%R) by exact H2.
    unfold Rdiv in H3. rewrite Rmult_1_r, Rmult_1_l in H3. apply (f_equal (Rmult (sqrt 2))) in H3.
    rewrite Rinv_r, Rmult_1_r in H3 by (pose proof (sqrt_lt_R0 2 ltac:(lra)); lra).
    pose proof (sqrt_sqrt 2 ltac:(lra)) as H4. rewrite H3 in H4. lra.
  - cbn [rows]. rewrite Ra. change (drows p / 2 ^ Z.to_nat 2) with 0. discriminate.
Qed.
Print Assumptions C54_refused_or_right_refuted.

(** ** C55: comparison.  [eq] is Blaze's comparison of two floats. *)
Theorem C55_equal_iff (T : Type) (eq : T -> T -> bool) (a b : buffer T) :
  buffer_eqb eq a b = true <-> related (fun x y => eq x y = true) a b.
Proof. exact (buffer_eqb_iff eq a b). Qed.
Print Assumptions C55_equal_iff.
(** a buffer equals itself (and its copy) iff every stored value equals
    itself: one NaN is enough for b != b *)
Theorem C55_reflexive (T : Type) (eq : T -> T -> bool) (b : buffer T) :
  buffer_eqb eq b b = true <-> forall x, holds b x -> eq x x = true.
Proof. exact (eq_refl_iff eq b). Qed.
Print Assumptions C55_reflexive.
Theorem C55_symmetric (T : Type) (eq : T -> T -> bool) (a b : buffer T) :
  (forall x y, eq x y = eq y x) -> buffer_eqb eq a b = buffer_eqb eq b a.
Proof. exact (fun H => eq_sym_holds eq H a b). Qed.
Print Assumptions C55_symmetric.
(** a != b is the negation of b == a; of a == b only if eq is symmetric *)
Theorem C55_not_equal (T : Type) (eq : T -> T -> bool) (a b : buffer T) :
  (buffer_neqb eq a b = true <-> ~ related (fun x y => eq x y = true) b a) /\
  ((forall x y, eq x y = eq y x) -> buffer_neqb eq a b = negb (buffer_eqb eq a b)).
Proof.
  unfold buffer_neqb. split.
  - rewrite <- buffer_eqb_iff. destruct (buffer_eqb eq b a); cbn; split; congruence.
  - intros H. f_equal. apply eq_sym_holds. exact H.
Qed.
Print Assumptions C55_not_equal.
(** What Parse makes of the bytes of an uncompressed Serialize equals the
    buffer, if no stored value differs from itself. *)
Theorem C55_parsed_equal cd legacy (eq : word -> word -> bool) b :
  storable b -> (forall x, holds b x -> eq x x = true) ->
  exists blob, serialize cd b 0 = Ok (Some blob) /\
    exists b', parse cd legacy blob = Ok (Some b') /\ buffer_eqb eq b b' = true.
Proof.
  intros H1 H2. destruct (uncompressed cd legacy b H1) as (blob & E1 & E2). exists blob. split; [exact E1|].
  specialize (E2 []). rewrite app_nil_r in E2. exists b. split; [exact E2|]. apply eq_refl_iff. exact H2.
Qed.
Print Assumptions C55_parsed_equal.
(** floats: numbers equal themselves, NaN (exponent 255, mantissa not 0) does not *)
Definition float_eqb (x y : word) : bool :=
  if (2 ^ 31 - 2 ^ 23 <? wbits x mod 2 ^ 31)%Z || (2 ^ 31 - 2 ^ 23 <? wbits y mod 2 ^ 31)%Z then false
  else (is_zero x && is_zero y) || (wbits x =? wbits y)%Z.
Definition C55_with (z : Z) : buffer word := Buffer (Params [2]%Z 1 0 0) [[mcolvec (map mkword [0; z])%Z]].
Example C55_case : buffer_eqb float_eqb (C55_with 5) (C55_with 5) = true /\
  buffer_eqb float_eqb (C55_with 0) (C55_with (2 ^ 31)) = true /\
  buffer_neqb float_eqb (C55_with 5) (C55_with 6) = true /\
  buffer_eqb float_eqb (C55_with 2143289344) (C55_with 2143289344) = false.
Proof. vm_compute. auto. Qed.
Example C55_storable : storable (C55_with 5) /\ forall x, holds (C55_with 5) x -> float_eqb x x = true.
Proof.
  split.
  - split; [|split].
    + unfold accepted, params_rep, legal, u64, i32; cbn [C55_with bpar shape signum steps wtype length].
      repeat split; auto; repeat constructor; lia.
    + reflexivity.
    + intros ch [<-|[]]. split; [reflexivity|]. unfold fits64, mwf. repeat constructor.
  - intros x (ch & m & [<-|[]] & [<-|[]] & [<-|[<-|[]]]); reflexivity.
Qed.

(** ** C60: CompressedSize is four bytes for each value that is not zero ... *)
Theorem C60_compressed_size (T : Type) (isz : T -> bool) (b : buffer T) :
  (4 * Z.of_nat (count_in (fun x => negb (isz x)) b) < 2 ^ 31)%Z ->
  compressed_size isz b = (4 * Z.of_nat (count_in (fun x => negb (isz x)) b))%Z.
Proof. exact (compressed_size_small isz b). Qed.
Print Assumptions C60_compressed_size.
(** ... but wrong for every buffer with 2^29 such values or more *)
Theorem C60_large_wrong (T : Type) (isz : T -> bool) (b : buffer T) :
  (2 ^ 31 <= 4 * Z.of_nat (count_in (fun x => negb (isz x)) b) < 2 ^ 64 - 2 ^ 31)%Z ->
  compressed_size isz b <> (4 * Z.of_nat (count_in (fun x => negb (isz x)) b))%Z.
Proof. exact (compressed_size_big isz b). Qed.
Print Assumptions C60_large_wrong.
Example C60_case : compressed_size is_zero (C55_with 5) = 4%Z.
Proof. reflexivity. Qed.
(** a storable buffer as large as that exists *)
Example C60_large_case : let n := Z.to_nat (2 ^ 29) in
  let b := Buffer (Params [2 ^ 29]%Z 1 0 0) [[Mat n 1 (repeat (mkword 5) n)]] in
  count_in (fun x => negb (is_zero x)) b = n /\ storable b.
Proof.
  cbv zeta. set (n := Z.to_nat (2 ^ 29)). assert (Hn : Z.of_nat n = (2 ^ 29)%Z) by (unfold n; rewrite Z2Nat.id; lia).
  clearbody n. split.
  - unfold count_in. cbn [bdec concat map elts app]. rewrite !app_nil_r. clear Hn.
    induction n as [|n IH]; [reflexivity|]. cbn [repeat filter length].
    replace (negb (is_zero (mkword 5))) with true by reflexivity. cbn [length]. f_equal. exact IH.
  - split; [|split].
    + unfold accepted, params_rep, legal, u64, i32; cbn [bpar shape signum steps wtype length].
      repeat split; auto; repeat constructor; lia.
    + reflexivity.
    + intros ch [<-|[]]. split; [reflexivity|]. constructor; [|constructor].
      unfold fits64, mwf. cbn [rows cols elts]. rewrite repeat_length. lia.
Qed.
