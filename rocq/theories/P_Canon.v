(** * P_Canon: the bytes Parse takes. *)
Require Import List Bool Arith ZArith Lia.
Require Import ZifyBool.
Require Import Verif.M_Base Verif.M_Params Verif.M_Buffer Verif.M_Archive Verif.M_Serializer.
Require Import Verif.S_Params Verif.S_Buffer Verif.S_Serializer Verif.S_Damage Verif.S_Canon.
Require Import Verif.P_Base Verif.P_Params Verif.P_Buffer Verif.P_Api Verif.P_Archive Verif.P_Serializer Verif.P_Blob Verif.P_Damage.
Import ListNotations.
Open Scope Z_scope.

(** ** readers that take exactly the byte strings R *)
Definition takes {X} (r : reader X) (R : X -> list Z -> Prop) : Prop :=
  (forall s x s', Forall is_byte s -> r s = Ok (x, s') -> exists a, s = a ++ s' /\ Forall is_byte a /\ Forall is_byte s' /\ R x a) /\
  (forall x a, Forall is_byte a -> R x a -> exactly r a x).

Lemma takes_N {X} (r : reader X) R : takes r R -> forall n,
  takes (readN n r) (fun l a => length l = n /\ exists as_, a = concat as_ /\ Forall2 R l as_).
Proof.
  intros (HI & HF). induction n as [|n (II & IF)]; split.
  - intros s x s' HB H. inversion H; subst. exists []. repeat split; auto. exists []. split; [reflexivity|constructor].
  - intros x a HB (Hl & as_ & -> & F). destruct x; [|discriminate]. inversion F; subst. apply exactly_ret.
  - intros s x s' HB H. cbn [readN] in H. apply rbind_ok in H as (y & s1 & H1 & H). apply rbind_ok in H as (t & s2 & H2 & H).
    inversion H; subst. apply HI in H1 as (a & -> & Ba & Bs & Ra); auto. apply II in H2 as (a2 & -> & Ba2 & Bs2 & Hl & as_ & -> & F); auto.
    exists (a ++ concat as_). split; [apply app_assoc|]. split; [apply Forall_app; auto|]. split; [auto|].
    split; [cbn [length]; auto|]. exists (a :: as_). split; [reflexivity|constructor; auto].
  - intros x a HB (Hl & as_ & -> & F). destruct x as [|x l]; [discriminate|]. inversion F as [|? a1 ? as2 F1 F2]; subst.
    cbn [concat] in *. apply Forall_app in HB as (B1 & B2). cbn [readN].
    eapply exactly_bind; [apply HF; eauto|]. rewrite <- (app_nil_r (concat as2)).
    assert (Q : exactly (readN n r) (concat as2) l) by (apply IF; [auto|]; split; [cbn in Hl; lia|eauto]).
    eapply exactly_bind; [exact Q|apply exactly_ret].
Qed.

Lemma takes_channels {X} (r : reader (mat word)) R : takes r R -> forall (shp : list (list X)),
  takes (get_channels shp r) (fun dec a => Forall2 (fun s ch => length ch = length s) shp dec /\
    exists as_, a = concat as_ /\ Forall2 R (concat dec) as_).
Proof.
  intros HR. induction shp as [|c shp (II & IF)]; split.
  - intros s x s' HB H. inversion H; subst. exists []. repeat split; auto. exists []. split; [reflexivity|constructor].
  - intros x a HB (Hl & as_ & -> & F). inversion Hl; subst. inversion F; subst. apply exactly_ret.
  - intros s x s' HB H. cbn [get_channels] in H. apply rbind_ok in H as (y & s1 & H1 & H). apply rbind_ok in H as (t & s2 & H2 & H).
    inversion H; subst. apply (takes_N r R HR) in H1 as (a & -> & Ba & Bs & Hl & as1 & -> & F1); auto.
    apply II in H2 as (a2 & -> & Ba2 & Bs2 & Hl2 & as2 & -> & F2); auto.
    exists (concat as1 ++ concat as2). split; [apply app_assoc|]. split; [apply Forall_app; auto|]. split; [auto|].
    split; [constructor; auto|]. exists (as1 ++ as2). rewrite concat_app. split; [reflexivity|]. cbn [concat]. apply Forall2_app; auto.
  - intros x a HB (Hl & as_ & -> & F). inversion Hl as [|? ch ? dec Hc Hl2]; subst. cbn [concat] in F.
    apply Forall2_app_inv_l in F as (as1 & as2 & F1 & F2 & ->). rewrite concat_app in *. apply Forall_app in HB as (B1 & B2).
    cbn [get_channels]. eapply exactly_bind; [apply (proj2 (takes_N r R HR (length c))); eauto|].
    rewrite <- (app_nil_r (concat as2)). eapply exactly_bind; [apply IF; eauto|apply exactly_ret].
Qed.

(** ** matrices *)
Lemma chk4 : takes (get_chk 4) (fun z v => length v = 4%nat /\ number v = z).
Proof.
  split.
  - intros s x s' HB H. apply get_chk_inv in H as (a & -> & H1 & H2 & H3 & H4); auto. exists a.
    rewrite number_of_le. auto.
  - intros x a HB (H1 & H2) rest. rewrite number_of_le in H2. subst x. apply chk_app; auto.
Qed.

Lemma words_back l : forall ws vals, Forall2 (fun z v => length v = 4%nat /\ number v = z) ws vals -> Forall (Forall is_byte) vals ->
  map mkword ws = l -> Forall2 (fun v w => length v = 4%nat /\ number v = wbits w) vals l.
Proof.
  intros ws vals F. revert l. induction F as [|z v ws vals (H1 & H2) F IH]; intros l HB <-; cbn [map]; [constructor|].
  inversion HB; subst. constructor; [|apply IH; auto]. split; [auto|]. cbn [wbits mkword]. symmetry. apply Z.mod_small.
  rewrite number_of_le. pose proof (of_le_range v H3) as Q. rewrite H1 in Q. exact Q.
Qed.
Lemma words_forth : forall vals l, Forall2 (fun v w => length v = 4%nat /\ number v = wbits w) vals l ->
  Forall2 (fun z v => length v = 4%nat /\ number v = z) (map wbits l) vals.
Proof. intros vals l F. induction F as [|v w vals l (H1 & H2) F IH]; constructor; auto. Qed.

Lemma takes_mat : takes get_mat stored_loose.
Proof.
  split.
  - intros s m s' HB H. unfold get_mat in H.
    apply rbind_ok in H as (v & s1 & H1 & H). apply get_chk_inv in H1 as (v1 & -> & L1 & -> & Bv1 & B1); auto.
    apply rbind_ok in H as (t & s2 & H2 & H). apply get_chk_inv in H2 as (v2 & -> & L2 & -> & Bv2 & B2); auto.
    apply rbind_ok in H as (et & s3 & H3 & H). apply get_chk_inv in H3 as (v3 & -> & L3 & -> & Bv3 & B3); auto.
    apply rbind_ok in H as (es & s4 & H4 & H). apply get_chk_inv in H4 as (v4 & -> & L4 & -> & Bv4 & B4); auto.
    apply rbind_ok in H as (r & s5 & H5 & H). apply get_chk_inv in H5 as (v5 & -> & L5 & -> & Bv5 & B5); auto.
    apply rbind_ok in H as (c & s6 & H6 & H). apply get_chk_inv in H6 as (v6 & -> & L6 & -> & Bv6 & B6); auto.
    apply rbind_ok in H as (k & s7 & H7 & H). apply get_chk_inv in H7 as (v7 & -> & L7 & -> & Bv7 & B7); auto.
    apply rbind_ok in H as ([] & s8 & H8 & H). unfold rcheck in H8. apply bind_ok in H8 as (u & H8 & E8). injection E8 as <-.
    apply rbind_ok in H as ([] & s9 & H9 & H). unfold rguard in H9. apply bind_ok in H9 as (u' & H9 & E9). injection E9 as <-.
    apply rbind_ok in H as (l & s10 & H10 & H). injection H as <- <-.
    unfold check in H8. unfold guard in H9.
    destruct ((of_le v1 =? 1) && (of_le v2 =? 1) && (of_le v3 =? 3) && (of_le v4 =? 4) && (of_le v7 <=? wrap64 (of_le v5 * of_le v6))) eqn:C; [|discriminate].
    destruct (of_le v5 * of_le v6 <? 2 ^ 64) eqn:C2; [|discriminate]. apply Z.ltb_lt in C2.
    rewrite !andb_true_iff, !Z.eqb_eq, Z.leb_le in C. destruct C as ((((C1 & C3) & C4) & C5) & C6).
    apply (takes_N _ _ chk4) in H10 as (a & -> & Ba & B10 & Ll & vals & -> & F); auto.
    pose proof (of_le_range8 v5 L5 Bv5) as R5. pose proof (of_le_range8 v6 L6 Bv6) as R6. pose proof (of_le_range8 v7 L7 Bv7) as R7.
    unfold u64 in *.
    assert (W : wrap64 (of_le v5 * of_le v6) = of_le v5 * of_le v6) by (unfold wrap64; apply Z.mod_small; nia). rewrite W in C6.
    destruct (one_byte v1 L1 Bv1) as (_ & E1). destruct (one_byte v2 L2 Bv2) as (_ & E2).
    destruct (one_byte v3 L3 Bv3) as (_ & E3). destruct (one_byte v4 L4 Bv4) as (_ & E4).
    rewrite C1 in E1. rewrite C3 in E2. rewrite C4 in E3. rewrite C5 in E4. subst v1 v2 v3 v4.
    exists ([1; 1; 3; 4] ++ v5 ++ v6 ++ v7 ++ concat vals). split; [cbn [app]; rewrite <- !app_assoc; reflexivity|].
    split; [repeat (apply Forall_app; split); auto; repeat constructor; unfold is_byte; lia|]. split; [auto|].
    exists (of_le v7). cbn [rows cols elts]. rewrite !Z2Nat.id by lia. split; [lia|].
    split. { unfold mwf. cbn [rows cols elts]. rewrite map_length. exact Ll. }
    split; [cbn [rows cols]; rewrite !Z2Nat.id by lia; exact C2|].
    exists v5, v6, v7, vals. cbn [rows cols elts]. rewrite !number_of_le, !Z2Nat.id by lia.
    repeat (split; [auto; fail|]). apply (words_back _ l); auto.
    clear - Ba. induction vals; constructor; cbn [concat] in Ba; apply Forall_app in Ba; tauto.
  - intros m a HB (count & Hc & W & Hrc & r & c & k & vals & -> & L1 & N1 & L2 & N2 & L3 & N3 & F) rest.
    rewrite number_of_le in *. rewrite !Forall_app in HB. destruct HB as (_ & B1 & B2 & B3 & B4).
    rewrite <- !app_assoc. cbn [app]. unfold get_mat.
    do 4 (unfold rbind at 1; rewrite chk1; cbn [bind fst snd]).
    do 3 (unfold rbind at 1; rewrite chk_app by auto; cbn [bind fst snd]).
    rewrite N1, N2, N3. unfold rbind at 1, rcheck, check.
    assert (Wr : wrap64 (Z.of_nat (rows m) * Z.of_nat (cols m)) = Z.of_nat (rows m) * Z.of_nat (cols m))
      by (unfold wrap64; apply Z.mod_small; lia).
    rewrite Wr. change (1 =? 1) with true. change (3 =? 3) with true. change (4 =? 4) with true. cbn [andb].
    rewrite (proj2 (Z.leb_le _ _)) by lia. cbn [bind fst snd]. unfold rbind at 1, rguard, guard.
    rewrite (proj2 (Z.ltb_lt _ _)) by lia. cbn [bind fst snd]. rewrite !Nat2Z.id.
    unfold rbind at 1. rewrite (proj2 (takes_N _ _ chk4 (rows m * cols m)%nat) (map wbits (elts m))); auto.
    + cbn [bind fst snd]. unfold rret. repeat f_equal. rewrite map_map, (map_ext _ (fun w => w)) by apply mkword_wbits.
      rewrite map_id. destruct m; reflexivity.
    + split; [rewrite map_length; exact W|]. exists vals. split; [reflexivity|]. apply words_forth; auto.
Qed.

Lemma loose_fits m a : stored_loose m a -> Forall is_byte a -> fits64 m.
Proof.
  intros (k & _ & W & Hrc & r & c & k' & vals & -> & L1 & N1 & L2 & N2 & _) HB. rewrite number_of_le in *.
  rewrite !Forall_app in HB. destruct HB as (_ & B1 & B2 & _).
  pose proof (of_le_range8 r L1 B1) as R1. pose proof (of_le_range8 c L2 B2) as R2. unfold u64 in *.
  split; [auto|]. split; [lia|]. split; [lia|auto].
Qed.
Lemma exact_put m : fits64 m -> stored_exact m (put_mat m).
Proof.
  intros (W & H1 & H2 & H3). split; [auto|]. split; [auto|].
  exists (put_u64 (Z.of_nat (rows m))), (put_u64 (Z.of_nat (cols m))), (put_u64 (Z.of_nat (rows m) * Z.of_nat (cols m))), (map put_word (elts m)).
  rewrite !number_of_le. unfold put_u64. rewrite !le_length, !of_le_le by (cbn; lia).
  split. { unfold put_mat, put_u64. 
    assert (Wr : wrap64 (Z.of_nat (rows m) * Z.of_nat (cols m)) = Z.of_nat (rows m) * Z.of_nat (cols m))
      by (unfold wrap64; apply Z.mod_small; lia). rewrite Wr. reflexivity. }
  repeat (split; [reflexivity|]). clear. induction (elts m) as [|w l IH]; constructor; auto.
  rewrite number_of_le. unfold put_word. rewrite le_length. split; [auto|]. apply of_le_le. pose proof (wbits_range w). cbn. lia.
Qed.
Lemma exact_loose m a : stored_exact m a -> stored_loose m a.
Proof. intros H. exists (Z.of_nat (rows m) * Z.of_nat (cols m)). split; [lia|exact H]. Qed.

(** ** whole blobs *)
Section P.
Variables (cd : codec) (legacy : buffer word -> list Z -> res (option (buffer word))).
Variable p : params.
Hypothesis HA : accepted p.
Variable hd : list Z.
Hypothesis HB : Forall is_byte hd.
Hypothesis HP : parameter_bytes p hd.

Lemma parse_form body : parse cd legacy ([3] ++ hd ++ [0] ++ body) =
  catch (let* r := get_channels (repeat (repeat (@mempty word) (decomposition_size p)) (Z.to_nat (signum p))) get_mat body in Ok (Buffer p (fst r))).
Proof.
  pose proof HA as (Hr & Hl & Ht & _).
  rewrite (header_read cd legacy p hd 0 body HB); [|unfold is_byte; lia|exact HP|unfold i32; lia|].
  2: { destruct Hl as (Hl & _). lia. }
  rewrite new_buffer_legal by (auto; lia). cbn [bind bpar bdec]. reflexivity.
Qed.
Lemma signum_pos : 0 <= signum p.
Proof. pose proof HA as ((_ & _ & H & _) & _). unfold u64 in H. lia. Qed.

Lemma F2_repeat {X Y} (P : X -> Y -> Prop) (x : X) n l : Forall2 P (repeat x n) l <-> length l = n /\ Forall (P x) l.
Proof.
  revert l. induction n; intros l; cbn [repeat]; split.
  - intros H. inversion H; subst. auto.
  - intros (H & _). destruct l; [constructor|discriminate].
  - intros H. inversion H; subst. apply IHn in H4 as (E & F). cbn [length]. auto.
  - intros (H & F). destruct l; [discriminate|]. inversion F; subst. constructor; auto. apply IHn. cbn in H. split; [lia|auto].
Qed.

Lemma parse_exactly body b : Forall is_byte body ->
  (parse cd legacy ([3] ++ hd ++ [0] ++ body) = Ok (Some b) <-> exists rest, holds stored_loose p b body rest).
Proof.
  intros BB. rewrite parse_form. set (shp := repeat _ _).
  destruct (takes_channels get_mat stored_loose takes_mat shp) as (I & F). pose proof signum_pos as Hs.
  assert (Sh : forall dec : list (list (mat word)), Forall2 (fun s ch => length ch = length s) shp dec <->
    Z.of_nat (length dec) = signum p /\ forall ch, In ch dec -> length ch = (nsteps p * bands p + 1)%nat).
  { intros dec. unfold shp. rewrite F2_repeat, Forall_forall, repeat_length, dsize_bands by (apply HA).
    split; intros (H1 & H2); (split; [lia|auto]). }
  split.
  - intros H. destruct (get_channels shp get_mat body) as [[dec s']| |] eqn:E; cbn [bind catch fst] in H; try discriminate.
    injection H as <-. apply I in E as (a & -> & Ba & Bs & Hf & as_ & -> & HF); auto. exists s'.
    apply Sh in Hf. split; [reflexivity|]. cbn [bdec]. split; [tauto|]. split; [tauto|]. eauto.
  - intros (rest & E1 & E2 & E3 & mats & -> & HF). apply Forall_app in BB as (B1 & B2).
    rewrite (F (bdec b) (concat mats)); auto.
    + cbn [bind catch fst]. rewrite <- E1. destruct b; reflexivity.
    + split; [apply Sh; auto|eauto].
Qed.

Lemma holds_storable b body rest : Forall is_byte body -> holds stored_loose p b body rest -> storable b.
Proof.
  intros BB (E1 & E2 & E3 & mats & -> & HF). unfold storable. rewrite E1. split; [auto|]. split; [auto|].
  intros ch Hc. split; [auto|]. apply Forall_app in BB as (B1 & _).
  assert (Q : Forall fits64 (concat (bdec b))).
  { clear - HF B1. induction HF as [|m a l mats H HF IH]; constructor; cbn [concat] in B1; apply Forall_app in B1; [eapply loose_fits; eauto; tauto|apply IH; tauto]. }
  rewrite Forall_forall in *. intros m Hm. apply Q. apply in_concat. eauto.
Qed.

Lemma holds_resaved b body rest : Forall is_byte body -> holds stored_loose p b body rest ->
  exists body', serialize cd b 0 = Ok (Some ([3] ++ hd ++ [0] ++ body')) /\ holds stored_exact p b body' [] /\
    parse cd legacy ([3] ++ hd ++ [0] ++ body') = Ok (Some b) /\ length body = length (body' ++ rest).
Proof.
  intros BB H. pose proof (holds_storable b body rest BB H) as HS. destruct H as (E1 & E2 & E3 & mats & -> & HF).
  assert (Q : serialize cd b 0 = Ok (Some ([3] ++ hd ++ [0] ++ concat (map put_mat (concat (bdec b)))))).
  { rewrite serialize_flat by auto. unfold head. rewrite E1, (parameter_bytes_put p hd HB HP). rewrite <- !app_assoc. reflexivity. }
  exists (concat (map put_mat (concat (bdec b)))). split; [exact Q|].
  pose proof (storable_fits b HS) as FF.
  split.
  { split; [auto|]. split; [auto|]. split; [auto|]. exists (map put_mat (concat (bdec b))). rewrite app_nil_r. split; [reflexivity|].
    clear - FF. induction FF; constructor; auto. apply exact_put; auto. }
  split.
  { destruct (uncompressed cd legacy b HS) as (blob & S1 & S2). rewrite Q in S1. injection S1 as <-. specialize (S2 []).
    rewrite app_nil_r in S2. exact S2. }
  rewrite !app_length. f_equal.
  assert (G : forall vals ws, Forall2 (fun (v : list Z) (w : word) => length v = 4%nat /\ number v = wbits w) vals ws -> length (concat vals) = (4 * length ws)%nat).
  { induction 1 as [|v w vals ws (L & _) F IH]; [reflexivity|]. cbn [concat length]. rewrite app_length. lia. }
  clear - HF FF G. induction HF as [|m a l mats H HF IH]; [reflexivity|]. cbn [map concat]. inversion FF; subst.
  rewrite !app_length, IH by auto. f_equal. rewrite put_mat_length by (destruct H2; auto).
  destruct H as (k & _ & W & _ & r & c & k' & vals & -> & L1 & _ & L2 & _ & L3 & _ & F). rewrite !app_length, (G _ _ F), L1, L2, L3.
  unfold mwf in W. rewrite W. unfold matrix_bytes. cbn [length]. lia.
Qed.
End P.

(** ** blanks before the version *)
Lemma dims_refused {T} q : (3 <= length (shape q))%nat -> @new_buffer T q = Throw.
Proof.
  intros H. unfold new_buffer, dimension. replace ((length (shape q) =? 2)%nat || (length (shape q) =? 1)%nat) with false by lia. reflexivity.
Qed.
Lemma readN_len {X} (r : reader X) n s l s' : readN n r s = Ok (l, s') -> length l = n.
Proof. intros H. apply readN_inv in H. tauto. Qed.
Lemma blank_then3 cd legacy x bl rest : blank x -> Forall blank bl -> Forall is_byte rest ->
  forall b, parse cd legacy ((x :: bl) ++ 3 :: rest) <> Ok (Some b).
Proof.
  intros Hx Hbl BB b H. unfold parse in H. rewrite first_char_skip in H; [|constructor; auto|unfold blank; lia].
  change (3 =? serialization_version) with true in H. cbv iota in H. unfold parse_v3 in H.
  match type of H with catch ?r = _ => destruct r as [b'| |] eqn:E; cbn [catch] in H; try discriminate end. clear H.
  apply bind_ok in E as ([[q sf] s1] & Hh & E). apply bind_ok in E as (b0 & Hn & E). clear E.
  cbn [app] in Hh. unfold rbind at 1 in Hh. rewrite raw1 in Hh. cbn [bind fst snd] in Hh.
  apply rbind_ok in Hh as (q' & t2 & H2 & Hh). apply rbind_ok in Hh as (sf' & t3 & H3 & Hh). injection Hh as -> -> _.
  unfold get_params in H2. apply rbind_ok in H2 as (sh & u1 & G1 & H2). apply rbind_ok in H2 as (num & u2 & G2 & H2).
  apply rbind_ok in H2 as (st & u3 & G3 & H2). apply rbind_ok in H2 as (t & u4 & G4 & H2). injection H2 as <- _.
  rewrite dims_refused in Hn; [discriminate|]. cbn [shape]. unfold get_shape in G1.
  apply rbind_ok in G1 as (n & w1 & K1 & G1). apply rbind_ok in G1 as (u & w2 & K2 & G1).
  apply readN_len in G1. rewrite G1.
  assert (Hb : exists y l, bl ++ 3 :: rest = y :: l /\ 3 <= y /\ Forall is_byte l).
  { destruct bl as [|y bl]; cbn [app]; [exists 3, rest; repeat split; auto; lia|]. inversion Hbl; subst. exists y, (bl ++ 3 :: rest).
    split; [reflexivity|]. unfold blank in *. split; [lia|]. apply Forall_app. split; [|constructor; [unfold is_byte; lia|auto]].
    eapply Forall_impl; [|exact H2]. intros a Ha. unfold blank, is_byte in *. lia. }
  destruct Hb as (y & l & E & Hy & Bl). rewrite E in K1. unfold get_raw, get_le in K1.
  destruct (take 8 (y :: l)) as [[a s]|] eqn:Et; [|discriminate]. injection K1 as <- _.
  apply take_inv in Et as (Et & La). destruct a as [|y' a]; [discriminate|]. cbn [app] in Et. injection Et as <- ->.
  apply Forall_app in Bl as (Ba & _). pose proof (of_le_range a Ba). cbn [of_le]. lia.
Qed.

(** ** exact bytes are those Serialize writes *)
Lemma exact_put_eq m a : stored_exact m a -> Forall is_byte a -> a = put_mat m.
Proof.
  intros H HB. pose proof (loose_fits m a (exact_loose m a H) HB) as (W & H1 & H2 & H3).
  destruct H as (_ & _ & r & c & k & vals & -> & L1 & N1 & L2 & N2 & L3 & N3 & F). rewrite number_of_le in *.
  rewrite !Forall_app in HB. destruct HB as (_ & B1 & B2 & B3 & B4). unfold put_mat.
  assert (Wr : wrap64 (Z.of_nat (rows m) * Z.of_nat (cols m)) = Z.of_nat (rows m) * Z.of_nat (cols m))
    by (unfold wrap64; apply Z.mod_small; lia).
  rewrite Wr, <- N1, <- N2. rewrite (u64_le r L1 B1) at 1. rewrite (u64_le c L2 B2) at 1. rewrite (u64_le k L3 B3).
  rewrite N3, <- N1, <- N2. do 4 f_equal. f_equal.
  clear - F B4. induction F as [|v w vals ws (L & E) F IH]; [reflexivity|]. cbn [concat map] in *. apply Forall_app in B4 as (B1 & B2).
  rewrite IH by auto. f_equal. rewrite number_of_le in E. unfold put_word. rewrite <- E, <- L. symmetry. apply le_of_le; auto.
Qed.
Lemma canonical cd p hd b body rest : Forall is_byte hd -> parameter_bytes p hd -> accepted p ->
  Forall is_byte body -> holds stored_exact p b body rest ->
  exists written, body = written ++ rest /\ serialize cd b 0 = Ok (Some ([3] ++ hd ++ [0] ++ written)).
Proof.
  intros HB HP HA BB H. assert (HL : holds stored_loose p b body rest).
  { destruct H as (E1 & E2 & E3 & mats & E & F). split; [auto|]. split; [auto|]. split; [auto|]. exists mats. split; [auto|].
    clear - F. induction F; constructor; auto. apply exact_loose; auto. }
  pose proof (holds_storable p HA b body rest BB HL) as HS.
  destruct H as (E1 & E2 & E3 & mats & -> & F). exists (concat mats). split; [reflexivity|].
  rewrite serialize_flat by auto. unfold head. rewrite E1, (parameter_bytes_put p hd HB HP). rewrite <- !app_assoc. do 6 f_equal.
  apply Forall_app in BB as (B1 & _). clear - F B1. induction F as [|m a l mats H F IH]; [reflexivity|]. cbn [concat map] in *.
  apply Forall_app in B1 as (B1 & B2). rewrite <- IH by auto. f_equal. symmetry. apply exact_put_eq; auto.
Qed.
Lemma put_params_bytes p : params_rep p -> parameter_bytes p (put_params p) /\ Forall is_byte (put_params p).
Proof.
  intros (R1 & R2 & R3 & R4 & R5). unfold u64 in *. split.
  - exists (put_u64 (Z.of_nat (length (shape p)))), (map put_u64 (shape p)), (put_u64 (signum p)), (put_u64 (steps p)), (put_i32 (wtype p)).
    assert (N8 : forall z, 0 <= z < 2 ^ 64 -> length (put_u64 z) = 8%nat /\ number (put_u64 z) = z).
    { intros z Hz. rewrite number_of_le. unfold put_u64. rewrite le_length, of_le_le by (cbn; lia). auto. }
    split; [unfold put_params, put_shape; rewrite <- !app_assoc; reflexivity|].
    split; [apply N8; auto|]. split; [apply N8; auto|]. split; [|split; [apply N8; auto|split; [apply N8; auto|split; [apply N8; auto|split; [apply N8; auto|]]]]].
    2: { unfold put_i32. rewrite number_of_le, le_length, of_le_le; [auto|]. pose proof (Z.mod_pos_bound (wtype p) (2 ^ 32)). cbn in *. lia. }
    clear N8.
    clear - R1. induction R1 as [|x l H R IH]; constructor; auto. rewrite number_of_le. unfold put_u64. rewrite le_length, of_le_le; auto.
  - unfold put_params, put_shape, put_u64, put_i32. repeat (apply Forall_app; split); try apply le_bytes.
    clear. induction (shape p); cbn [map concat]; [constructor|]. apply Forall_app; split; [apply le_bytes|auto].
Qed.
Lemma blank_version2 cd legacy b x t extra : storable b -> dimension (bpar b) = 2%nat -> blank x -> blob_v2 b = 2 :: t ->
  parse cd legacy ((x :: t) ++ extra) = Ok (Some b).
Proof.
  intros HS HD Hx E. pose proof (parse_v2_storable cd legacy b extra HS) as Q. rewrite E in Q. cbn [app] in *.
  assert (E2 : exists t2, t = 2 :: t2).
  { unfold blob_v2, put_params, put_shape in E. unfold dimension in HD. rewrite HD in E. cbn [app] in E. injection E as <-. eexists. reflexivity. }
  destruct E2 as (t2 & ->).
  assert (Bx : is_blank x = true) by (unfold is_blank, blank in *; lia).
  unfold parse in *. cbn [first_char app] in *. rewrite Bx. change (is_blank 2) with false in *. cbv iota in *.
  change (2 =? serialization_version) with false in *. change (2 =? 2) with true in *. cbv iota in *. rewrite <- Q.
  unfold parse_v2. unfold rbind. rewrite !raw1. reflexivity.
Qed.
