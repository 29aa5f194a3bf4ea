(** * P_Damage: proofs about damaged blobs *)
Require Import List Bool Arith ZArith Lia.
Require Import Verif.M_Base Verif.M_Params Verif.M_Buffer Verif.M_Archive Verif.M_Serializer Verif.P_Base Verif.P_Params
  Verif.S_Params Verif.S_Serializer Verif.P_Archive Verif.P_Serializer Verif.P_Blob Verif.S_Damage.
Import ListNotations.
Open Scope Z_scope.

Lemma number_of_le l : number l = of_le l.
Proof. induction l as [|a l IH]; [reflexivity|]. cbn [number fold_right of_le]. fold (number l). rewrite IH. reflexivity. Qed.
Lemma le_of_le l : Forall is_byte l -> le (length l) (of_le l) = l.
Proof.
  induction 1 as [|a l Ha Hl IH]; [reflexivity|]. cbn [length le of_le]. unfold is_byte in Ha.
  replace ((a + 256 * of_le l) mod 256) with a
    by (symmetry; rewrite Z.mul_comm, Z.mod_add by lia; apply Z.mod_small; lia).
  replace ((a + 256 * of_le l) / 256) with (of_le l); [rewrite IH; reflexivity|].
  rewrite Z.mul_comm, Z.div_add by lia. rewrite Z.div_small by lia. lia.
Qed.

(** ** Readers on any bytes *)
Definition safe_at {X} (P : list Z -> Prop) (r : reader X) : Prop :=
  forall s, Forall is_byte s -> P s -> r s <> UB /\ forall x s', r s = Ok (x, s') -> Forall is_byte s' /\ P s'.
Lemma safe_bind {X Y} P (r : reader X) (f : X -> reader Y) :
  safe_at P r -> (forall x, safe_at P (f x)) -> safe_at P (rbind r f).
Proof.
  intros Hr Hf s HB HP. destruct (Hr s HB HP) as (H1 & H2). unfold rbind.
  destruct (r s) as [[x s1]| |]; [|split; discriminate|congruence]. cbn [bind fst snd].
  destruct (H2 x s1 eq_refl) as (HB1 & HP1). apply Hf; auto.
Qed.
Lemma safe_ret {X} P (x : X) : safe_at P (rret x).
Proof. intros s HB HP. split; [discriminate|]. intros y s' E. inversion E; subst. auto. Qed.
Lemma safe_N {X} P (r : reader X) : safe_at P r -> forall n, safe_at P (readN n r).
Proof.
  intros H. induction n; cbn [readN]; [apply safe_ret|].
  apply safe_bind; auto. intros x. apply safe_bind; auto. intros t. apply safe_ret.
Qed.
Lemma safe_channels {X} P (r : reader (mat word)) (shp : list (list X)) : safe_at P r -> safe_at P (get_channels shp r).
Proof.
  intros H. induction shp as [|c shp IH]; cbn [get_channels]; [apply safe_ret|].
  apply safe_bind; [apply safe_N; auto|]. intros x. apply safe_bind; auto. intros l. apply safe_ret.
Qed.
Definition closed (P : list Z -> Prop) : Prop := forall a s, P (a ++ s) -> P s.
Lemma safe_chk P n : closed P -> safe_at P (get_chk n).
Proof.
  intros HC s HB HP. unfold get_chk, get_le. destruct (take n s) as [[a t]|] eqn:E; [|split; discriminate].
  apply take_inv in E. destruct E as (-> & _). split; [discriminate|]. intros x s' E. inversion E; subst.
  apply Forall_app in HB. split; [tauto|]. eapply HC; eauto.
Qed.

Lemma oversized_closed : closed (fun s => ~ oversized s).
Proof.
  intros a s H (pre & r & c & post & -> & H1 & H2 & H3). apply H.
  exists (a ++ pre), r, c, post. rewrite <- app_assoc. auto.
Qed.

Lemma get_chk_inv n s z s' : Forall is_byte s -> get_chk n s = Ok (z, s') ->
  exists a, s = a ++ s' /\ length a = n /\ z = of_le a /\ Forall is_byte a /\ Forall is_byte s'.
Proof.
  intros HB E. unfold get_chk, get_le in E. destruct (take n s) as [[a t]|] eqn:Et; [|discriminate].
  apply take_inv in Et. destruct Et as (-> & Hl). inversion E; subst. exists a.
  apply Forall_app in HB. tauto.
Qed.
Lemma bind_chk_cases {Y} n (f : Z -> reader Y) s : Forall is_byte s ->
  rbind (get_chk n) f s = Throw \/
  exists a s', s = a ++ s' /\ length a = n /\ Forall is_byte a /\ Forall is_byte s' /\
    rbind (get_chk n) f s = f (of_le a) s'.
Proof.
  intros HB. unfold rbind. destruct (get_chk n s) as [[z s']| |] eqn:E.
  - right. destruct (get_chk_inv n s z s' HB E) as (a & -> & H1 & -> & H3 & H4). exists a, s'. cbn [bind fst snd]. auto.
  - left. reflexivity.
  - unfold get_chk, get_le in E. destruct (take n s) as [[a t]|]; discriminate.
Qed.
Lemma one_byte a : length a = 1%nat -> Forall is_byte a -> of_le a = hd 0 a /\ a = [of_le a].
Proof. destruct a as [|x [|y a]]; cbn; try lia. intros _ _. split; [lia|]. f_equal. lia. Qed.

Lemma safe_mat : safe_at (fun s => ~ oversized s) get_mat.
Proof.
  intros s HB HP. unfold get_mat.
  repeat match goal with
  | |- context [rbind (get_chk ?n) ?f ?s0] =>
      let E := fresh "E" in let H := fresh "H" in
      destruct (bind_chk_cases n f s0 ltac:(assumption)) as [E|(?a & ?t & H & ?Hl & ?Ha & ?Hb & E)];
      rewrite E; clear E; [split; discriminate|]; cbv beta
  end.
  unfold rbind at 1. unfold rcheck, check.
  destruct (_ && _) eqn:EC; cbn [bind fst snd]; [|split; discriminate].
  rewrite !andb_true_iff, !Z.eqb_eq in EC. destruct EC as ((((E1 & E2) & E3) & E4) & _).
  assert (Hs : ~ 2 ^ 64 <= of_le a3 * of_le a4).
  { intros Hbig. apply HP. exists [], a3, a4, (a5 ++ t5).
    rewrite !number_of_le. repeat split; auto.
    destruct (one_byte a) as (_ & Q0); auto. destruct (one_byte a0) as (_ & Q1); auto.
    destruct (one_byte a1) as (_ & Q2); auto. destruct (one_byte a2) as (_ & Q3); auto.
    rewrite H, H0, H1, H2, H3, H4, H5. cbn [app]. rewrite Q0, Q1, Q2, Q3, E1, E2, E3, E4. reflexivity. }
  unfold rbind at 1. unfold rguard, guard. rewrite (proj2 (Z.ltb_lt _ _)) by lia. cbn [bind fst snd].
  assert (HP' : ~ oversized t5).
  { apply (oversized_closed (a ++ a0 ++ a1 ++ a2 ++ a3 ++ a4 ++ a5)). rewrite <- !app_assoc.
    rewrite H, H0, H1, H2, H3, H4, H5 in HP. exact HP. }
  exact (safe_bind (fun s => ~ oversized s) (readN (Z.to_nat (of_le a3) * Z.to_nat (of_le a4)) (get_chk 4)) _
    (safe_N _ _ (safe_chk _ 4 oversized_closed) _) (fun l => safe_ret _ _) t5 Hb5 HP').
Qed.

(** ** Any header *)
Lemma u64_le l : length l = 8%nat -> Forall is_byte l -> l = put_u64 (of_le l).
Proof. intros H HB. unfold put_u64. rewrite <- H. symmetry. apply le_of_le; auto. Qed.
Lemma parameter_bytes_put p bytes : Forall is_byte bytes -> parameter_bytes p bytes -> bytes = put_params p.
Proof.
  intros HB (n & sides & ch & st & ty & -> & H1 & H2 & H3 & H4 & H5 & H6 & H7 & H8 & H9).
  rewrite number_of_le in *.
  rewrite !Forall_app in HB. destruct HB as (B1 & B2 & B3 & B4 & B5).
  unfold put_params, put_shape. rewrite <- app_assoc.
  rewrite <- H2, <- H5, <- H7. rewrite <- !u64_le by auto. unfold put_i32. rewrite <- H9.
  rewrite <- H8 at 1. rewrite le_of_le by auto. repeat f_equal.
  clear - H3 B2. induction H3 as [|l x sides sh (E1 & E2) H IH]; [reflexivity|]. cbn [map concat] in *.
  apply Forall_app in B2. destruct B2 as (B1 & B2). rewrite IH by auto. f_equal.
  rewrite <- E2, number_of_le. apply u64_le; auto.
Qed.
Lemma of_le_range8 l : length l = 8%nat -> Forall is_byte l -> u64 (of_le l).
Proof. intros H HB. pose proof (of_le_range l HB) as HR. rewrite H in HR. exact HR. Qed.
Lemma parameter_bytes_rep p bytes : Forall is_byte bytes -> parameter_bytes p bytes ->
  Forall u64 (shape p) /\ u64 (Z.of_nat (length (shape p))) /\ u64 (signum p) /\ u64 (steps p).
Proof.
  intros HB (n & sides & ch & st & ty & -> & H1 & H2 & H3 & H4 & H5 & H6 & H7 & H8 & H9).
  rewrite number_of_le in *.
  rewrite !Forall_app in HB. destruct HB as (B1 & B2 & B3 & B4 & B5).
  rewrite <- H2, <- H5, <- H7. repeat split; try (apply of_le_range8; auto).
  clear - H3 B2. induction H3 as [|l x sides sh (E1 & E2) H IH]; constructor.
  - cbn [concat] in B2. apply Forall_app in B2. rewrite <- E2, number_of_le. apply of_le_range8; tauto.
  - cbn [concat] in B2. apply Forall_app in B2. tauto.
Qed.

Lemma shape_too_long n s : 2 ^ 60 <= n < 2 ^ 64 -> get_shape (put_u64 n ++ s) = Throw.
Proof.
  intros H. unfold get_shape, rbind, put_u64. rewrite (exactly_le UB 8 n ltac:(cbn; lia)). cbn [bind fst snd].
  unfold rcheck, check. rewrite (proj2 (Z.ltb_ge _ _)) by lia. reflexivity.
Qed.

Lemma parse3 cd legacy s : parse cd legacy (3 :: s) = parse_v3 cd (3 :: s).
Proof. reflexivity. Qed.
Lemma raw1 b s : get_raw 1 (b :: s) = Ok (b, s).
Proof. unfold get_raw, get_le, take. cbn [length Nat.leb firstn skipn of_le]. repeat f_equal. lia. Qed.

Lemma long_shape_refused cd legacy n rest : Forall is_byte n -> length n = 8%nat -> 2 ^ 60 <= number n ->
  parse cd legacy ([3] ++ n ++ rest) = Ok None.
Proof.
  intros HB Hl Hn. rewrite number_of_le in Hn. pose proof (of_le_range8 n Hl HB) as HR. unfold u64 in HR.
  cbn [app]. rewrite parse3. unfold parse_v3. unfold rbind at 1. rewrite raw1. cbn [bind fst snd].
  unfold rbind at 1. unfold get_params. unfold rbind at 1.
  rewrite (u64_le n) by auto. rewrite shape_too_long by lia. reflexivity.
Qed.

Lemma header_read cd legacy p bytes sf rest : Forall is_byte bytes -> is_byte sf -> parameter_bytes p bytes ->
  i32 (wtype p) -> Z.of_nat (length (shape p)) < 2 ^ 60 ->
  parse cd legacy ([3] ++ bytes ++ [sf] ++ rest) =
  catch (let* b := @new_buffer word p in
         let* r := get_channels (bdec b) (get_subband cd sf) rest in Ok (Buffer (bpar b) (fst r))).
Proof.
  intros HB Hsf HP Hw Hd. destruct (parameter_bytes_rep p bytes HB HP) as (R1 & R2 & R3 & R4).
  rewrite (parameter_bytes_put p bytes HB HP). cbn [app]. rewrite parse3. unfold parse_v3.
  unfold rbind at 1. rewrite raw1. cbn [bind fst snd].
  assert (HR : params_rep p) by (unfold params_rep; auto).
  unfold rbind at 1. destruct (both_params p HR Hd) as (HX & _). rewrite HX. cbn [bind fst snd].
  unfold rbind at 1. rewrite raw1. reflexivity.
Qed.

(** ** Never undefined *)
Lemma legal_dec p : {legal p} + {~ legal p}.
Proof.
  unfold legal.
  assert (D : forall (P Q : Prop), {P} + {~ P} -> {Q} + {~ Q} -> {P /\ Q} + {~ (P /\ Q)}) by tauto.
  apply D; [|apply D].
  - destruct (Nat.eq_dec (length (shape p)) 1); [tauto|]. destruct (Nat.eq_dec (length (shape p)) 2); tauto.
  - apply Forall_dec. intros n. apply Z_le_dec.
  - destruct (wtype p =? 0); [apply Z.eq_dec|]. apply Forall_dec. intros n. apply Z_le_dec.
Qed.
Lemma legal_dec_new p : params_rep p -> 0 <= wtype p < 2 ^ 30 ->
  (exists b, @new_buffer word p = Ok b) \/ @new_buffer word p = Throw.
Proof.
  intros Hr Ht. destruct (constructor_correct word p Hr Ht) as (H1 & H2).
  destruct (legal_dec p) as [H|H]; [|auto]. left. destruct (H1 H) as (b & E & _). eauto.
Qed.
Lemma illegal_refused cd legacy p bytes sf rest : Forall is_byte bytes -> is_byte sf -> parameter_bytes p bytes ->
  0 <= wtype p < 2 ^ 30 -> ~ legal p ->
  parse cd legacy ([3] ++ bytes ++ [sf] ++ rest) = Ok None.
Proof.
  intros HB Hs HP Hw HL. destruct (parameter_bytes_rep p bytes HB HP) as (R1 & R2 & R3 & R4).
  destruct (Z_lt_ge_dec (Z.of_nat (length (shape p))) (2 ^ 60)) as [Hd|Hd].
  - rewrite (header_read cd legacy p) by (auto; unfold i32; lia).
    assert (Hp : params_rep p) by (unfold params_rep; refine (conj R1 (conj R2 (conj R3 (conj R4 _)))); unfold i32; lia).
    destruct (constructor_correct word p Hp Hw) as (_ & H2). rewrite H2 by auto. reflexivity.
  - destruct HP as (n & sides & ch & st & ty & -> & H1 & H2 & _).
    rewrite <- app_assoc. apply long_shape_refused; auto; [|lia].
    apply Forall_app in HB. tauto.
Qed.

Lemma parse_safe cd legacy p bytes rest : Forall is_byte bytes -> Forall is_byte rest -> parameter_bytes p bytes ->
  0 <= wtype p < 2 ^ 30 -> ~ oversized rest ->
  exists r, parse cd legacy ([3] ++ bytes ++ [0] ++ rest) = Ok r.
Proof.
  intros HB HR HP Hw HO. destruct (parameter_bytes_rep p bytes HB HP) as (R1 & R2 & R3 & R4).
  destruct (Z_lt_ge_dec (Z.of_nat (length (shape p))) (2 ^ 60)) as [Hd|Hd].
  - rewrite (header_read cd legacy p) by (auto; unfold is_byte, i32; lia).
    assert (Hp : params_rep p) by (unfold params_rep; refine (conj R1 (conj R2 (conj R3 (conj R4 _)))); unfold i32; lia).
    assert (HU : @new_buffer word p <> UB).
    { destruct (legal_dec_new p Hp Hw) as [(b & E)|E]; rewrite E; discriminate. }
    destruct (@new_buffer word p) as [b| |]; [|eexists; reflexivity|congruence]. cbn [bind].
    destruct (safe_channels (fun s => ~ oversized s) get_mat (bdec b) safe_mat rest HR HO) as (HN & _).
    unfold get_subband. cbn [Z.eqb]. destruct (get_channels _ _ rest) as [x| |]; [| |congruence]; cbn [bind catch]; eauto.
  - destruct HP as (n & sides & ch & st & ty & -> & H1 & H2 & _).
    exists None. rewrite <- app_assoc. apply long_shape_refused; auto; [|lia].
    apply Forall_app in HB. tauto.
Qed.

(** ** The layout of an uncompressed blob *)
Lemma mapM_pure {X Y} (f : X -> Y) l : mapM (fun x => Ok (f x)) l = Ok (map f l).
Proof. induction l as [|x l IH]; [reflexivity|]. cbn [mapM map]. rewrite IH. reflexivity. Qed.
Lemma mapM_ext {X Y} (f g : X -> res Y) l : (forall x, f x = g x) -> mapM f l = mapM g l.
Proof. intros H. induction l as [|x l IH]; [reflexivity|]. cbn [mapM]. rewrite H, IH. reflexivity. Qed.
Lemma some_inj {X} (a b : X) : Ok (Some a) = Ok (Some b) -> b = a.
Proof. congruence. Qed.
Definition head (p : params) : list Z := [3] ++ put_params p ++ [0].
Lemma head_length p : length (head p) = header_length p.
Proof. unfold head, header_length. rewrite !app_length, put_params_length. cbn [length]. lia. Qed.
Lemma concat_map2 {X Y} (f : X -> list Y) (l : list (list X)) : concat (concat (map (map f) l)) = concat (map f (concat l)).
Proof. induction l as [|x l IH]; [reflexivity|]. cbn [map concat]. rewrite concat_app, map_app, concat_app, IH. reflexivity. Qed.
Lemma serialize_flat cd b : storable b ->
  serialize cd b 0 = Ok (Some (head (bpar b) ++ concat (map put_mat (concat (bdec b))))).
Proof.
  intros HS. unfold serialize. rewrite storable_with by auto. cbn [bind]. unfold serializer_serialize.
  replace (if is_empty b then 0 else Z.min 31 0) with 0 by (destruct (is_empty b); reflexivity).
  rewrite (mapM_ext _ (fun ch => Ok (map put_mat ch))).
  2:{ intros ch. rewrite (mapM_ext _ (fun m => Ok (put_mat m))) by reflexivity. apply mapM_pure. }
  rewrite mapM_pure. cbn [bind catch]. rewrite concat_map2. unfold head, serialization_version.
  rewrite <- !app_assoc. reflexivity.
Qed.
Lemma put_word_length w : length (put_word w) = 4%nat.
Proof. apply le_length. Qed.
Lemma words_length l : length (concat (map put_word l)) = (4 * length l)%nat.
Proof. induction l as [|w l IH]; [reflexivity|]. cbn [map concat length]. rewrite app_length, put_word_length, IH. lia. Qed.
Lemma put_mat_length m : mwf m -> length (put_mat m) = matrix_bytes m.
Proof.
  intros W. unfold put_mat, matrix_bytes, put_u64. rewrite !app_length, !le_length, words_length.
  unfold mwf in W. rewrite W. cbn [length]. lia.
Qed.
Lemma mats_length l : Forall mwf l -> length (concat (map put_mat l)) = list_sum (map matrix_bytes l).
Proof.
  induction 1 as [|m l Hm H IH]; [reflexivity|]. cbn [map concat list_sum fold_right].
  rewrite app_length, put_mat_length, IH by auto. reflexivity.
Qed.
Lemma storable_fits b : storable b -> Forall fits64 (concat (bdec b)).
Proof.
  intros (_ & _ & H). apply Forall_forall. intros m Hm. apply in_concat in Hm. destruct Hm as (ch & Hc & Hm).
  destruct (H ch Hc) as (_ & HF). rewrite Forall_forall in HF. auto.
Qed.
Lemma fits_mwf l : Forall (@fits64 word) l -> Forall mwf l.
Proof. intros H. eapply Forall_impl; [|exact H]. intros m Hm. apply Hm. Qed.

Lemma blob_length cd b blob : storable b -> serialize cd b 0 = Ok (Some blob) ->
  length blob = offset (bpar b) (concat (bdec b)).
Proof.
  intros HS E. rewrite serialize_flat in E by auto. apply some_inj in E. subst blob. rewrite app_length, head_length, mats_length
    by (apply fits_mwf, storable_fits; auto). reflexivity.
Qed.

Lemma app_eq_len {X} (a b c d : list X) : a ++ b = c ++ d -> length a = length c -> a = c /\ b = d.
Proof.
  revert c. induction a as [|x a IH]; intros [|y c] H Hl; cbn in *; try lia; auto.
  inversion H; subst. destruct (IH c H2 ltac:(lia)) as (-> & ->). auto.
Qed.

(** ** Damage to a tag *)
Lemma readN_app {X} (r : reader X) a : forall b s, readN (a + b) r s = rbind (readN a r) (fun x => rbind (readN b r) (fun y => rret (x ++ y))) s.
Proof.
  induction a as [|a IH]; intros b s; cbn [readN Nat.add].
  - unfold rbind, rret. cbn [bind fst snd app]. destruct (readN b r s) as [[x s1]| |]; reflexivity.
  - unfold rbind. cbn [bind]. destruct (r s) as [[x s1]| |]; cbn [bind fst snd]; auto.
    rewrite IH. unfold rbind, rret. destruct (readN a r s1) as [[y s2]| |]; cbn [bind fst snd]; auto.
    destruct (readN b r s2) as [[z s3]| |]; reflexivity.
Qed.
Lemma channels_throw {X} (r : reader (mat word)) (shp : list (list X)) : forall s,
  readN (list_sum (map (@length X) shp)) r s = Throw -> get_channels shp r s = Throw.
Proof.
  induction shp as [|c shp IH]; intros s H; [discriminate|]. cbn [map list_sum fold_right] in H.
  fold (list_sum (map (@length X) shp)) in H. rewrite readN_app in H. cbn [get_channels].
  unfold rbind in *. destruct (readN (length c) r s) as [[x s1]| |]; cbn [bind fst snd] in *; try discriminate; auto.
  destruct (readN (list_sum _) r s1) as [[y s2]| |] eqn:E; cbn [bind fst snd] in *; try discriminate.
  rewrite IH by auto. reflexivity.
Qed.
Lemma readN_throw {X} (r : reader X) (enc : X -> list Z) l n s : (length l < n)%nat ->
  Forall (fun x => exactly r (enc x) x) l -> r s = Throw -> readN n r (concat (map enc l) ++ s) = Throw.
Proof.
  intros Hn HF Hr. revert n Hn. induction HF as [|x l Hx HF IH]; intros n Hn; cbn [length] in Hn.
  - destruct n; [lia|]. cbn [map concat app readN]. unfold rbind at 1. rewrite Hr. reflexivity.
  - destruct n; [lia|]. cbn [map concat readN]. rewrite <- app_assoc. unfold rbind at 1. rewrite Hx. cbn [bind fst snd].
    unfold rbind at 1. rewrite IH by lia. reflexivity.
Qed.
Lemma storable_sum b b0 : Forall2 (fun s ch : list (mat word) => length s = length ch) b0 (bdec b) ->
  list_sum (map (@length _) b0) = length (concat (bdec b)).
Proof.
  intros H. induction H as [|s ch l l' E H IH]; [reflexivity|]. cbn [map list_sum fold_right concat].
  rewrite app_length, E. f_equal. exact IH.
Qed.

(** [bad]: the bytes at the place of the next subband make its reader throw *)
Lemma parse_bad cd legacy b before m after bad : storable b -> splits b before m after -> get_mat bad = Throw ->
  parse cd legacy (head (bpar b) ++ concat (map put_mat before) ++ bad) = Ok None.
Proof.
  intros HS HC HB. destruct (storable_new b HS) as (b0 & E & Ep & HF). pose proof HS as (HA & _).
  destruct (both_header (bpar b) 0 HA ltac:(lia)) as (HH & _). unfold head.
  change (parse_v3 cd (([3] ++ put_params (bpar b) ++ [0]) ++ concat (map put_mat before) ++ bad) = Ok None).
  unfold parse_v3. rewrite HH. cbn [bind]. rewrite E. cbn [bind].
  rewrite channels_throw; [reflexivity|].
  pose proof (storable_fits b HS) as HFt. unfold splits in HC. rewrite HC in HFt. apply Forall_app in HFt. destruct HFt as (HFb & _).
  rewrite (storable_sum b) by auto. rewrite HC. unfold get_subband. cbn [Z.eqb].
  apply readN_throw; auto.
  - rewrite app_length. cbn [length]. lia.
  - eapply Forall_impl; [|exact HFb]. intros x Hx. apply (both_mat x Hx).
Qed.

Lemma chk1 b s : get_chk 1 (b :: s) = Ok (b, s).
Proof. unfold get_chk, get_le, take. cbn [length Nat.leb firstn skipn of_le]. repeat f_equal. lia. Qed.
Lemma chk_app n a s : length a = n -> get_chk n (a ++ s) = Ok (of_le a, s).
Proof. intros H. unfold get_chk, get_le. rewrite take_app by auto. reflexivity. Qed.
Lemma bad_mat a b c d r8 c8 n8 s : length r8 = 8%nat -> length c8 = 8%nat -> length n8 = 8%nat ->
  ([a; b; c; d] <> [1; 1; 3; 4] \/ wrap64 (of_le r8 * of_le c8) < of_le n8) ->
  get_mat ([a; b; c; d] ++ r8 ++ c8 ++ n8 ++ s) = Throw.
Proof.
  intros H1 H2 H3 H. unfold get_mat. cbn [app].
  do 4 (unfold rbind at 1; rewrite chk1; cbn [bind fst snd]).
  do 3 (unfold rbind at 1; rewrite chk_app by auto; cbn [bind fst snd]).
  unfold rbind at 1. unfold rcheck, check.
  destruct (_ && _) eqn:E; [|reflexivity]. exfalso.
  rewrite !andb_true_iff, !Z.eqb_eq, Z.leb_le in E. destruct E as ((((-> & ->) & ->) & ->) & E).
  destruct H; [congruence|lia].
Qed.

Lemma split4 (l : list Z) : length l = 4%nat -> exists a b c d, l = [a; b; c; d].
Proof. destruct l as [|a [|b [|c [|d [|e l]]]]]; cbn; try lia. intros _. eauto 6. Qed.

Lemma offset_split cd b before m after blob : storable b -> splits b before m after ->
  serialize cd b 0 = Ok (Some blob) ->
  blob = (head (bpar b) ++ concat (map put_mat before)) ++ put_mat m ++ concat (map put_mat after) /\
  length (head (bpar b) ++ concat (map put_mat before)) = offset (bpar b) before /\
  Forall fits64 before /\ fits64 m /\ Forall fits64 after.
Proof.
  intros HS HC E. rewrite serialize_flat in E by auto. apply some_inj in E. subst blob.
  pose proof (storable_fits b HS) as HF. unfold splits in HC. rewrite HC in *. apply Forall_app in HF. destruct HF as (HF1 & HF2).
  inversion HF2; subst. split; [|split; [|auto]].
  - rewrite map_app, concat_app. cbn [map concat]. rewrite <- !app_assoc. reflexivity.
  - rewrite app_length, head_length, mats_length by (apply fits_mwf; auto). reflexivity.
Qed.

Lemma tag_damaged cd legacy b before m after blob pre old new post :
  storable b -> splits b before m after -> serialize cd b 0 = Ok (Some blob) ->
  blob = pre ++ old ++ post -> length pre = offset (bpar b) before -> length old = 4%nat ->
  length new = 4%nat -> new <> old -> parse cd legacy (pre ++ new ++ post) = Ok None.
Proof.
  intros HS HC E Eb Hp Ho Hn Hne. destruct (offset_split cd b before m after blob HS HC E) as (E1 & E2 & _ & Hm & _).
  rewrite Eb in E1. destruct (app_eq_len _ _ _ _ E1 ltac:(lia)) as (-> & E3).
  unfold put_mat in E3. rewrite <- !app_assoc in E3.
  destruct (app_eq_len old _ [1; 1; 3; 4] _ E3 ltac:(cbn [length]; lia)) as (-> & ->).
  rewrite <- app_assoc. apply (parse_bad cd legacy b before m after); auto.
  destruct (split4 new Hn) as (a & b1 & c & d & ->).
  apply bad_mat; try apply le_length. left. auto.
Qed.

Lemma put_mat_parts m : put_mat m = ([1; 1; 3; 4] ++ put_u64 (Z.of_nat (rows m)) ++ put_u64 (Z.of_nat (cols m)))
  ++ put_u64 (wrap64 (Z.of_nat (rows m) * Z.of_nat (cols m))) ++ concat (map put_word (elts m)).
Proof. unfold put_mat. rewrite <- !app_assoc. reflexivity. Qed.

Lemma count_damaged cd legacy b before m after blob pre old new post :
  storable b -> splits b before m after -> serialize cd b 0 = Ok (Some blob) ->
  blob = pre ++ old ++ post -> length pre = (offset (bpar b) before + 20)%nat -> length old = 8%nat ->
  length new = 8%nat -> number old < number new -> parse cd legacy (pre ++ new ++ post) = Ok None.
Proof.
  intros HS HC E Eb Hp Ho Hn Hne. destruct (offset_split cd b before m after blob HS HC E) as (E1 & E2 & _ & Hm & _).
  rewrite !number_of_le in Hne.
  rewrite Eb, put_mat_parts in E1. rewrite <- (app_assoc ([1; 1; 3; 4] ++ _)) in E1.
  rewrite (app_assoc (head _ ++ _)) in E1.
  destruct (app_eq_len _ _ _ _ E1) as (-> & E3).
  { rewrite app_length, E2, !app_length. unfold put_u64. rewrite !le_length. cbn [length]. lia. }
  rewrite <- app_assoc in E3.
  destruct (app_eq_len old _ _ _ E3) as (-> & ->); [unfold put_u64; rewrite le_length; auto|].
  rewrite <- !app_assoc. apply (parse_bad cd legacy b before m after); auto.
  apply bad_mat; try apply le_length; auto. right. destruct Hm as (_ & R1 & R2 & R3). unfold put_u64 in *.
  rewrite of_le_le in Hne by (cbn; apply Z.mod_pos_bound; lia). rewrite !of_le_le by (cbn; lia). auto.
Qed.

(** ** Damage to a value *)
Lemma words_split {X} (l : list X) i : (i < length l)%nat -> exists a w c, l = a ++ w :: c /\ length a = i.
Proof.
  intros H. destruct (nth_error l i) as [w|] eqn:E; [|apply nth_error_None in E; lia].
  destruct (nth_error_split l i E) as (a & c & -> & Hl). eauto.
Qed.
Lemma unconcat {X} (dec : list (list X)) : forall l, length l = length (concat dec) ->
  exists dec', map (@length X) dec' = map (@length X) dec /\ concat dec' = l.
Proof.
  induction dec as [|ch dec IH]; intros l Hl; cbn [concat] in Hl.
  - exists []. destruct l; [auto|discriminate].
  - rewrite app_length in Hl. destruct (IH (skipn (length ch) l)) as (d & H1 & H2); [rewrite skipn_length; lia|].
    exists (firstn (length ch) l :: d). cbn [map concat]. rewrite H1, H2, firstn_length_le by lia.
    rewrite firstn_skipn. auto.
Qed.
Lemma storable_same (b b' : buffer word) : storable b -> bpar b' = bpar b -> map (@length (mat word)) (bdec b') = map (@length (mat word)) (bdec b) ->
  Forall fits64 (concat (bdec b')) -> storable b'.
Proof.
  intros (HA & HL & HC) Ep El HF. split; [rewrite Ep; auto|]. split.
  - rewrite Ep, <- HL. f_equal. pose proof (f_equal (@length nat) El) as H. rewrite !map_length in H. exact H.
  - intros ch Hch. split.
    + rewrite Ep. assert (Hin : In (length ch) (map (@length (mat word)) (bdec b'))) by (apply in_map; auto).
      rewrite El in Hin. apply in_map_iff in Hin. destruct Hin as (ch' & <- & Hc'). apply HC; auto.
    + apply Forall_forall. intros m Hm. rewrite Forall_forall in HF. apply HF, in_concat. eauto.
Qed.

Lemma value_damaged cd legacy b before m after blob pre old new post i :
  storable b -> splits b before m after -> serialize cd b 0 = Ok (Some blob) ->
  (i < rows m * cols m)%nat -> blob = pre ++ old ++ post ->
  length pre = (offset (bpar b) before + 28 + 4 * i)%nat -> length old = 4%nat ->
  length new = 4%nat -> Forall is_byte new ->
  exists b' m' x, parse cd legacy (pre ++ new ++ post) = Ok (Some b') /\
    replaced b b' before m' after /\ changed m m' i x /\ wbits x = number new.
Proof.
  intros HS HC E Hi Eb Hp Ho Hn HB. destruct (offset_split cd b before m after blob HS HC E) as (E1 & E2 & F1 & Hm & F2).
  pose proof Hm as (W & R1 & R2 & R3). unfold mwf in W. rewrite <- W in Hi.
  destruct (words_split (elts m) i Hi) as (ea & w & ec & Ee & Hea).
  set (x := mkword (of_le new)).
  assert (Hx : wbits x = of_le new).
  { unfold x. cbn [mkword wbits]. apply Z.mod_small. pose proof (of_le_range new HB) as HR. rewrite Hn in HR. exact HR. }
  set (m' := Mat (rows m) (cols m) (ea ++ x :: ec)).
  assert (Hm' : fits64 m').
  { unfold fits64, mwf, m'. cbn [rows cols elts]. split; [|auto]. rewrite <- W, Ee, !app_length. reflexivity. }
  destruct (unconcat (bdec b) (before ++ m' :: after)) as (dec' & D1 & D2).
  { unfold splits in HC. rewrite HC, !app_length. reflexivity. }
  set (b' := Buffer (bpar b) dec').
  assert (HS' : storable b').
  { apply (storable_same b); auto. cbn [bdec b']. rewrite D2. apply Forall_app. auto. }
  assert (HC' : splits b' before m' after) by exact D2.
  exists b', m', x. split; [|split; [|split]].
  - destruct (uncompressed cd legacy b' HS') as (blob' & E' & HP). specialize (HP []). rewrite app_nil_r in HP.
    replace (pre ++ new ++ post) with blob'; [exact HP|].
    destruct (offset_split cd b' before m' after blob' HS' HC' E') as (-> & E2' & _).
    rewrite Eb in E1. rewrite !put_mat_parts in *. unfold m' at 1 2 3 4 5. cbn [rows cols elts]. rewrite Ee in E1.
    rewrite !map_app, !concat_app in *. cbn [map concat] in *.
    rewrite <- !app_assoc in E1. rewrite !app_assoc in E1.
    rewrite <- !app_assoc. rewrite !app_assoc.
    match type of E1 with ((pre ++ old) ++ post) = (((?A ++ put_word w) ++ ?B) ++ ?C) =>
      rewrite <- !(app_assoc pre) in E1; rewrite <- (app_assoc _ B C), <- (app_assoc A) in E1;
      destruct (app_eq_len pre _ A _ E1) as (-> & E3) end.
    { rewrite !app_length, head_length, mats_length, words_length by (apply fits_mwf; auto).
      unfold put_u64. rewrite !le_length. rewrite Hp. unfold offset. cbn [length]. lia. }
    destruct (app_eq_len old _ _ _ E3) as (_ & ->); [rewrite put_word_length; auto|].
    rewrite <- !app_assoc. cbn [bpar b' app]. repeat f_equal.
    unfold put_word. rewrite Hx, <- Hn. rewrite le_of_le by auto. reflexivity.
  - split; [reflexivity|]. split; [exact D1|exact HC'].
  - unfold changed, m'. cbn [rows cols elts]. repeat split; auto.
    + rewrite Ee, !app_length. reflexivity.
    + rewrite nth_error_app2 by lia. rewrite Hea, Nat.sub_diag. reflexivity.
    + intros j Hj. rewrite Ee. destruct (Nat.lt_ge_cases j (length ea)) as [H|H].
      * rewrite !nth_error_app1 by auto. reflexivity.
      * rewrite !nth_error_app2 by auto. destruct (j - length ea)%nat as [|k] eqn:Ek; [lia|]. reflexivity.
  - rewrite number_of_le. exact Hx.
Qed.

(** ** Tags in compressed blobs and in version 2 *)
Lemma bad_bytes a b c d n8 k8 s : length n8 = 8%nat -> length k8 = 8%nat ->
  ([a; b; c; d] <> [1; 0; 2; 1] \/ of_le n8 < of_le k8) ->
  get_bytes ([a; b; c; d] ++ n8 ++ k8 ++ s) = Throw.
Proof.
  intros H1 H2 H. unfold get_bytes. cbn [app].
  do 4 (unfold rbind at 1; rewrite chk1; cbn [bind fst snd]).
  do 2 (unfold rbind at 1; rewrite chk_app by auto; cbn [bind fst snd]).
  unfold rbind at 1. unfold rcheck, check.
  destruct (_ && _) eqn:E; [|reflexivity]. exfalso.
  rewrite !andb_true_iff, !Z.eqb_eq, Z.leb_le in E. destruct E as ((((-> & ->) & ->) & ->) & E).
  destruct H; [congruence|lia].
Qed.
Lemma bad_vec {X} so (r : reader X) a b c d n8 k8 s : length n8 = 8%nat -> length k8 = 8%nat ->
  ([a; b; c; d] <> [1; 0; 0; so] \/ of_le n8 < of_le k8) ->
  get_vec so r ([a; b; c; d] ++ n8 ++ k8 ++ s) = Throw.
Proof.
  intros H1 H2 H. unfold get_vec. cbn [app].
  do 4 (unfold rbind at 1; rewrite chk1; cbn [bind fst snd]).
  do 2 (unfold rbind at 1; rewrite chk_app by auto; cbn [bind fst snd]).
  unfold rbind at 1. unfold rcheck, check.
  destruct (_ && _) eqn:E; [|reflexivity]. exfalso.
  rewrite !andb_true_iff, !Z.eqb_eq, Z.leb_le in E. destruct E as ((((-> & ->) & ->) & ->) & E).
  destruct H; [congruence|lia].
Qed.

Lemma first_throw {X} (r : reader (mat word)) (shp : list (list X)) s : (1 <= list_sum (map (@length X) shp))%nat ->
  r s = Throw -> get_channels shp r s = Throw.
Proof.
  intros H Hr. apply channels_throw. destruct (list_sum _) as [|n]; [lia|]. cbn [readN]. unfold rbind at 1.
  rewrite Hr. reflexivity.
Qed.

Lemma new_has_subband p b : params_rep p -> 0 <= wtype p < 2 ^ 30 -> 1 <= signum p -> @new_buffer word p = Ok b ->
  (1 <= list_sum (map (@length (mat word)) (bdec b)))%nat.
Proof.
  intros Hr Ht Hs E. destruct (constructor_correct word p Hr Ht) as (H1 & H2).
  destruct (legal_dec p) as [Hl|Hl]; [|rewrite H2 in E by auto; discriminate].
  destruct (H1 Hl) as (b' & E' & Ep & Hn & Hc). rewrite E in E'. apply Ok_inj in E'. subst b'.
  destruct (bdec b) as [|ch l]; cbn [length] in Hn; [lia|]. cbn [map list_sum fold_right].
  destruct (Hc ch (or_introl eq_refl)) as (Hch & _). rewrite Hch. unfold subband_count. destruct (shape p) as [|? [|? ?]]; lia.
Qed.

Lemma chk8 a s : length a = 8%nat -> get_chk 8 (a ++ s) = Ok (of_le a, s).
Proof. apply chk_app. Qed.

Lemma compressed_tags cd legacy p bytes sf nz r c tag n k more :
  Forall is_byte bytes -> is_byte sf -> sf <> 0 -> parameter_bytes p bytes -> 0 <= wtype p < 2 ^ 30 ->
  1 <= signum p -> length nz = 8%nat -> length r = 8%nat -> length c = 8%nat ->
  length tag = 4%nat -> length n = 8%nat -> length k = 8%nat ->
  (tag <> [1; 0; 2; 1] \/ number n < number k) ->
  (parse cd legacy ([3] ++ bytes ++ [sf] ++ nz ++ r ++ c ++ tag ++ n ++ k ++ more) = Ok None) /\
  (forall indexes, Forall is_byte indexes -> Z.of_nat (length indexes) < 2 ^ 64 ->
   parse cd legacy ([3] ++ bytes ++ [sf] ++ nz ++ r ++ c ++ put_bytes indexes ++ tag ++ n ++ k ++ more) = Ok None).
Proof.
  intros HB Hsf Hs0 HP Hw Hs L1 L2 L3 L4 L5 L6 HT. rewrite !number_of_le in HT.
  destruct (parameter_bytes_rep p bytes HB HP) as (R1 & R2 & R3 & R4).
  destruct (split4 tag L4) as (a & b1 & c1 & d & ->).
  destruct (legal_dec p) as [Hl|Hl]; [|split; [|intros]; apply (illegal_refused cd legacy p); auto].
  assert (Hd : Z.of_nat (length (shape p)) < 2 ^ 60) by (destruct Hl as (Hl & _); lia).
  assert (Hp : params_rep p) by (unfold params_rep; refine (conj R1 (conj R2 (conj R3 (conj R4 _)))); unfold i32; lia).
  destruct (constructor_correct word p Hp Hw) as (H1 & _). destruct (H1 Hl) as (b & Eb & _).
  pose proof (new_has_subband p b Hp Hw Hs Eb) as Hc.
  assert (Hgo : forall s, rbind get_bytes (fun i => rbind get_bytes (fun v s0 =>
      let* m := decompress cd (Archived (of_le nz) (of_le r) (of_le c) i v) in Ok (m, s0))) s = Throw ->
    parse cd legacy ([3] ++ bytes ++ [sf] ++ nz ++ r ++ c ++ s) = Ok None).
  { intros s Hthrow. rewrite (header_read cd legacy p) by (auto; unfold i32; lia). rewrite Eb. cbn [bind].
    rewrite first_throw; [reflexivity|auto|]. unfold get_subband. rewrite (proj2 (Z.eqb_neq _ _)) by auto.
    do 3 (unfold rbind at 1; rewrite chk8 by auto; cbn [bind fst snd]). exact Hthrow. }
  split; [|intros ix Hix Hlen]; apply Hgo.
  - unfold rbind at 1. rewrite bad_bytes by auto. reflexivity.
  - unfold rbind at 1. destruct (both_bytes ix Hix Hlen) as (HE & _). rewrite HE. cbn [bind fst snd].
    unfold rbind at 1. rewrite bad_bytes by auto. reflexivity.
Qed.

Lemma version2_tag cd legacy p bytes tag n k more :
  Forall is_byte bytes -> parameter_bytes p bytes -> 0 <= wtype p < 2 ^ 30 -> Z.of_nat (length (shape p)) < 2 ^ 60 ->
  length tag = 4%nat -> length n = 8%nat -> length k = 8%nat ->
  (tag <> [1; 0; 0; 24] \/ number n < number k) ->
  parse cd legacy ([2] ++ bytes ++ [0] ++ tag ++ n ++ k ++ more) = Ok None.
Proof.
  intros HB HP Hw Hd L4 L5 L6 HT. rewrite !number_of_le in HT.
  destruct (parameter_bytes_rep p bytes HB HP) as (R1 & R2 & R3 & R4).
  destruct (split4 tag L4) as (a & b1 & c1 & d & ->).
  assert (Hp : params_rep p) by (unfold params_rep; refine (conj R1 (conj R2 (conj R3 (conj R4 _)))); unfold i32; lia).
  rewrite (parameter_bytes_put p bytes HB HP).
  change (parse_v2 legacy (2 :: put_params p ++ 0 :: ([a; b1; c1; d] ++ n ++ k ++ more)) = Ok None).
  unfold parse_v2. unfold rbind at 1. rewrite raw1. cbn [bind fst snd].
  unfold rbind at 1. destruct (both_params p Hp Hd) as (HX & _). rewrite HX. cbn [bind fst snd].
  unfold rbind at 1. rewrite raw1. cbn [bind fst snd rret].
  destruct (legal_dec_new p Hp Hw) as [(b & E)|E]; rewrite E; [|reflexivity]. cbn [bind negb Z.eqb].
  rewrite bad_vec by auto. reflexivity.
Qed.
