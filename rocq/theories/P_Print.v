(** * P_Print: printed parameters can be read back *)
Require Import List Bool ZArith NArith String Ascii Lia DecimalString DecimalN Decimal.
Require Import Verif.M_Base Verif.M_Params Verif.M_Buffer Verif.M_Print Verif.S_Print.
Import ListNotations.
Open Scope string_scope.

Definition digit (c : ascii) : bool := let n := nat_of_ascii c in Nat.leb 48 n && Nat.leb n 57.
Fixpoint digits (s : string) : Prop :=
  match s with "" => True | String c t => digit c = true /\ digits t end.
Definition stops (s : string) : Prop := match s with "" => True | String c _ => digit c = false end.

Lemma app_assoc_s a b c : (a ++ b) ++ c = a ++ (b ++ c).
Proof. induction a as [|x a IH]; [reflexivity|]. cbn [append]. rewrite IH. reflexivity. Qed.
Lemma app_cancel a s t : a ++ s = a ++ t -> s = t.
Proof. induction a as [|x a IH]; [auto|]. cbn [append]. intros H. injection H as H. auto. Qed.

Lemma digits_split a b s t : digits a -> digits b -> stops s -> stops t -> a ++ s = b ++ t -> a = b /\ s = t.
Proof.
  revert b. induction a as [|x a IH]; intros [|y b] Ha Hb Hs Ht H; cbn [append] in H.
  - auto.
  - subst s. cbn in Hs, Hb. destruct Hb. congruence.
  - subst t. cbn in Ht, Ha. destruct Ha. congruence.
  - injection H as -> H. cbn in Ha, Hb. destruct (IH b) as (-> & ->); tauto.
Qed.

Lemma digits_uint u : digits (NilEmpty.string_of_uint u).
Proof. induction u; cbn; auto. Qed.
Lemma show_digits z : digits (show_size z).
Proof. unfold show_size, NilZero.string_of_uint. destruct (N.to_uint _); try apply digits_uint. cbn. auto. Qed.
Lemma show_inj a b : (0 <= a)%Z -> (0 <= b)%Z -> show_size a = show_size b -> a = b.
Proof.
  intros Ha Hb H. unfold show_size in H.
  assert (E : N.to_uint (Z.to_N a) = N.to_uint (Z.to_N b)).
  { apply (f_equal NilZero.uint_of_string) in H.
    assert (U : forall n, NilZero.uint_of_string (NilZero.string_of_uint (N.to_uint n)) = Some (N.to_uint n)).
    { intros n. apply NilZero.usu. intros E. pose proof (Unsigned.of_to n) as O. rewrite E in O. cbn in O. subst n. discriminate. }
    rewrite !U in H. congruence. }
  apply (f_equal N.of_uint) in E. rewrite !Unsigned.of_to in E. lia.
Qed.
Lemma show_nonempty z : exists c t, show_size z = String c t /\ digit c = true.
Proof.
  unfold show_size, NilZero.string_of_uint. destruct (N.to_uint _); cbn; eexists; eexists; split; reflexivity.
Qed.

(** one number up to a character that is no digit *)
Lemma show_split a b s t : (0 <= a)%Z -> (0 <= b)%Z -> stops s -> stops t ->
  show_size a ++ s = show_size b ++ t -> a = b /\ s = t.
Proof.
  intros Ha Hb Hs Ht H. destruct (digits_split _ _ _ _ (show_digits a) (show_digits b) Hs Ht H) as (E & ->).
  split; auto. apply show_inj; auto.
Qed.

Lemma shape_split c : digit c = false -> c <> "x"%char -> forall l k s t,
  Forall (fun n => 0 <= n)%Z l -> Forall (fun n => 0 <= n)%Z k ->
  shape_repr false l ++ String c s = shape_repr false k ++ String c t -> l = k /\ s = t.
Proof.
  intros Hc Hx. induction l as [|n l IH]; intros [|m k] s t Hl Hk H; cbn [shape_repr append] in H.
  - injection H as ->. auto.
  - injection H as E _. congruence.
  - injection H as E _. congruence.
  - injection H as H. rewrite !app_assoc_s in H. inversion Hl; subst. inversion Hk; subst.
    apply show_split in H; auto.
    + destruct H as (-> & H). destruct (IH k s t) as (-> & ->); auto.
    + destruct l as [|? l]; cbn; auto.
    + destruct k as [|? k]; cbn; auto.
Qed.
Lemma shape_split_first c : digit c = false -> c <> "x"%char -> forall l k s t,
  Forall (fun n => 0 <= n)%Z l -> Forall (fun n => 0 <= n)%Z k ->
  shape_repr true l ++ String c s = shape_repr true k ++ String c t -> l = k /\ s = t.
Proof.
  intros Hc Hx [|n l] [|m k] s t Hl Hk H; cbn [shape_repr append] in H.
  - injection H as ->. auto.
  - destruct (show_nonempty m) as (d & r & E & Hd). rewrite E in H. cbn [append] in H. injection H as -> _. congruence.
  - destruct (show_nonempty n) as (d & r & E & Hd). rewrite E in H. cbn [append] in H. injection H as -> _. congruence.
  - rewrite !app_assoc_s in H. inversion Hl; subst. inversion Hk; subst. apply show_split in H; auto.
    + destruct H as (-> & H). destruct (shape_split c Hc Hx l k s t) as (-> & ->); auto.
    + destruct l as [|? l]; cbn; auto.
    + destruct k as [|? k]; cbn; auto.
Qed.

Lemma type_inj a b s t : (0 <= a <= 5)%Z -> (0 <= b <= 5)%Z ->
  type_repr a ++ ">" ++ s = type_repr b ++ ">" ++ t -> a = b /\ s = t.
Proof.
  intros Ha Hb H.
  assert (CA : (a = 0 \/ a = 1 \/ a = 2 \/ a = 3 \/ a = 4 \/ a = 5)%Z) by lia.
  assert (CB : (b = 0 \/ b = 1 \/ b = 2 \/ b = 3 \/ b = 4 \/ b = 5)%Z) by lia.
  destruct CA as [-> | [-> | [-> | [-> | [-> | ->]]]]]; destruct CB as [-> | [-> | [-> | [-> | [-> | ->]]]]];
    cbn in H; try discriminate H; injection H as ->; auto.
Qed.

Lemma u64s l : Forall u64 l -> Forall (fun n => 0 <= n)%Z l.
Proof. intros H. eapply Forall_impl; [|exact H]. intros n Hn. apply Hn. Qed.

Lemma repr_inj name p q s t : params_rep p -> params_rep q -> (0 <= wtype p <= 5)%Z -> (0 <= wtype q <= 5)%Z ->
  params_repr name p ++ s = params_repr name q ++ t -> p = q.
Proof.
  intros (P1 & _ & P3 & P4 & _) (Q1 & _ & Q3 & Q4 & _) Tp Tq H. unfold u64 in *.
  unfold params_repr in H. rewrite !app_assoc_s in H. do 3 apply app_cancel in H.
  apply show_split in H; try (cbn; lia); try reflexivity. destruct H as (E1 & H). apply app_cancel in H.
  apply (shape_split_first ")"%char) in H; try reflexivity; try discriminate; try (apply u64s; assumption).
  destruct H as (E2 & H). apply (app_cancel ", decomposition_steps=") in H.
  apply show_split in H; try lia; try reflexivity. destruct H as (E3 & H). apply app_cancel in H.
  apply type_inj in H; auto. destruct H as (E4 & _).
  clear - E1 E2 E3 E4. destruct p as [a1 b1 c1 d1], q as [a2 b2 c2 d2]. cbn in E1, E2, E3, E4. congruence.
Qed.

Lemma minus_no_digit : digit "-"%char = false. Proof. reflexivity. Qed.
Lemma int_split a b s t : stops s -> stops t -> show_int a ++ s = show_int b ++ t -> a = b /\ s = t.
Proof.
  intros Hs Ht H. unfold show_int in H. destruct (Z.ltb_spec a 0) as [Ha|Ha]; destruct (Z.ltb_spec b 0) as [Hb|Hb].
  - rewrite !app_assoc_s in H. apply app_cancel in H. apply show_split in H; auto; try lia. split; [lia|tauto].
  - destruct (show_nonempty b) as (d & r & E & Hd). rewrite E in H. cbn [append] in H. injection H as <- _. discriminate.
  - destruct (show_nonempty a) as (d & r & E & Hd). rewrite E in H. cbn [append] in H. injection H as -> _. discriminate.
  - apply show_split in H; auto.
Qed.

Lemma print_params_inj row p q s t : readable (Forall u64) row -> params_rep p -> params_rep q ->
  print_params row p ++ s = print_params row q ++ t -> p = q.
Proof.
  intros HR (P1 & _ & P3 & P4 & _) (Q1 & _ & Q3 & Q4 & _) H. unfold u64 in P3, P4, Q3, Q4.
  unfold print_params in H. rewrite !app_assoc_s in H. do 3 apply app_cancel in H.
  pose proof (HR _ _ _ _ P1 Q1 H) as E1. rewrite E1 in H. apply app_cancel in H. apply app_cancel in H.
  apply show_split in H; try lia; try reflexivity. destruct H as (E2 & H). do 2 apply app_cancel in H.
  apply show_split in H; try lia; try reflexivity. destruct H as (E3 & H). do 2 apply app_cancel in H.
  apply int_split in H; try reflexivity. destruct H as (E4 & _).
  clear - E1 E2 E3 E4. destruct p as [a1 b1 c1 d1], q as [a2 b2 c2 d2]. cbn in E1, E2, E3, E4. congruence.
Qed.

Lemma print_buffer_params {T} row mtx (a b : buffer T) : readable (Forall u64) row -> params_rep (bpar a) -> params_rep (bpar b) ->
  fst (print_buffer row mtx a) = fst (print_buffer row mtx b) -> bpar a = bpar b.
Proof.
  intros HR Ha Hb H. unfold print_buffer in H. cbn [fst] in H. do 2 apply app_cancel in H.
  eapply print_params_inj; eauto.
Qed.

(** a printer of row vectors: "( 1 2 3 )" and a line end *)
Fixpoint row_items (l : list Z) : string :=
  match l with [] => "" | n :: t => show_size n ++ " " ++ row_items t end.
Definition row_print (l : list Z) : string := "( " ++ row_items l ++ ")" ++ endl.
Lemma row_items_split : forall l k s t, Forall (fun n => 0 <= n)%Z l -> Forall (fun n => 0 <= n)%Z k ->
  row_items l ++ ")" ++ s = row_items k ++ ")" ++ t -> l = k.
Proof.
  induction l as [|n l IH]; intros [|m k] s t Hl Hk H; cbn [row_items append] in H; auto.
  - destruct (show_nonempty m) as (d & r & E & Hd). rewrite E in H. cbn [append] in H. injection H as <- _. discriminate.
  - destruct (show_nonempty n) as (d & r & E & Hd). rewrite E in H. cbn [append] in H. injection H as -> _. discriminate.
  - rewrite !app_assoc_s in H. inversion Hl; subst. inversion Hk; subst.
    apply show_split in H; auto; try reflexivity. destruct H as (-> & H). injection H as H.
    f_equal. eapply IH; [auto|auto|exact H].
Qed.
Lemma row_print_readable : readable (Forall u64) row_print.
Proof.
  intros a b s t Ha Hb H. unfold row_print in H. rewrite !app_assoc_s in H. apply app_cancel in H.
  eapply row_items_split; [apply u64s, Ha|apply u64s, Hb|exact H].
Qed.

Lemma concat_strings_app a b : concat_strings (a ++ b)%list = concat_strings a ++ concat_strings b.
Proof. induction a as [|x a IH]; [reflexivity|]. cbn [List.app concat_strings]. rewrite IH, app_assoc_s. reflexivity. Qed.
Lemma app_nil_s a : a ++ "" = a.
Proof. induction a as [|x a IH]; [reflexivity|]. cbn [append]. rewrite IH. reflexivity. Qed.
Lemma cout_lines {T} row (mtx : mat T -> string) (b : buffer T) :
  (bdec b = [] -> snd (print_buffer row mtx b) = "") /\
  forall ch p, let b' := Buffer p (bdec b ++ [ch])%list in
    snd (print_buffer row mtx b') =
    snd (print_buffer row mtx b) ++ "  channel: " ++ show_size (Z.of_nat (List.length (bdec b))) ++ endl.
Proof.
  unfold print_buffer. cbn [snd bdec]. split.
  - intros E. rewrite E. reflexivity.
  - intros ch p. rewrite app_length. cbn [List.length]. rewrite Nat.add_1_r, seq_S, map_app, concat_strings_app.
    cbn [map concat_strings Nat.add]. rewrite app_nil_s. reflexivity.
Qed.

(** ** The fields *)
Lemma decimal_acc u : forall acc, decimal_from (Zpos acc) (NilEmpty.string_of_uint u) = Some (Zpos (Pos.of_uint_acc u acc)).
Proof.
  induction u; intros acc; [reflexivity|..]; cbn [NilEmpty.string_of_uint decimal_from Pos.of_uint_acc];
    (match goal with |- context [nat_of_ascii ?c] =>
       let v := eval vm_compute in (Z.of_nat (nat_of_ascii c) - 48)%Z in
       change (Z.of_nat (nat_of_ascii c) - 48)%Z with v end);
    cbn [Z.leb Z.compare Pos.compare Pos.compare_cont andb]; rewrite <- IHu; f_equal; lia.
Qed.
Lemma decimal_zero u : decimal_from 0 (NilEmpty.string_of_uint u) = Some (Z.of_N (Pos.of_uint u)).
Proof.
  induction u; [reflexivity|..]; cbn [NilEmpty.string_of_uint decimal_from Pos.of_uint];
    (match goal with |- context [nat_of_ascii ?c] =>
       let v := eval vm_compute in (Z.of_nat (nat_of_ascii c) - 48)%Z in
       change (Z.of_nat (nat_of_ascii c) - 48)%Z with v end);
    cbn [Z.leb Z.compare Pos.compare Pos.compare_cont andb];
    [exact IHu|..]; match goal with |- decimal_from (10 * 0 + ?d)%Z _ = _ => change (10 * 0 + d)%Z with d end;
    rewrite decimal_acc; reflexivity.
Qed.
Lemma nzhead_no_zero u l : nzhead u <> D0 l.
Proof. induction u; cbn [nzhead]; try discriminate. exact IHu. Qed.
Lemma to_uint_head n l : N.to_uint n = D0 l -> l = Nil /\ n = 0%N.
Proof.
  intros H. pose proof (Unsigned.to_of (N.to_uint n)) as E. rewrite Unsigned.of_to in E.
  assert (L : l = Nil).
  { rewrite H in E. unfold unorm in E. destruct (nzhead (D0 l)) eqn:N0; try discriminate E.
    - injection E as ->. reflexivity.
    - exfalso. eapply nzhead_no_zero; eauto. }
  split; auto. subst l. pose proof (Unsigned.of_to n) as O. rewrite H in O. cbn in O. auto.
Qed.
Lemma show_numeral z : (0 <= z)%Z -> numeral (show_size z) z.
Proof.
  intros Hz. unfold numeral, show_size, NilZero.string_of_uint.
  pose proof (Unsigned.of_to (Z.to_N z)) as O.
  assert (NN : N.to_uint (Z.to_N z) <> Nil).
  { intros E. rewrite E in O. cbn in O. rewrite <- O in E. discriminate. }
  set (u := N.to_uint (Z.to_N z)) in *.
  replace (match u with Nil => "0" | _ => NilEmpty.string_of_uint u end) with (NilEmpty.string_of_uint u) by (destruct u; congruence).
  split; [|split; [|split]].
  - destruct u; try discriminate. congruence.
  - rewrite decimal_zero. f_equal. unfold N.of_uint in O. rewrite O. lia.
  - intros H0. destruct u as [|l|l|l|l|l|l|l|l|l|l] eqn:E; try discriminate. intros _.
    destruct (to_uint_head (Z.to_N z) l E). lia.
  - intros ->. reflexivity.
Qed.

Lemma contains_here a part b : contains part (a ++ part ++ b).
Proof. exists a, b. reflexivity. Qed.
Fixpoint numerals (first : bool) (l : list string) : string :=
  match l with [] => "" | n :: t => (if first then "" else "x") ++ n ++ numerals false t end.
Lemma shape_numerals l : Forall u64 l -> forall f, shape_repr f l = numerals f (map show_size l) /\ Forall2 numeral (map show_size l) l.
Proof.
  induction 1 as [|n l Hn Hl IH]; intros f; [split; [reflexivity|constructor]|].
  cbn [map shape_repr numerals]. destruct (IH false) as (E & F). rewrite E. split; [reflexivity|]. constructor; auto.
  apply show_numeral, Hn.
Qed.
Lemma numerals_concat l : numerals true l = String.concat "x" l.
Proof.
  destruct l as [|n l]; [reflexivity|]. cbn [numerals append].
  revert n. induction l as [|m l IH]; intros n; [cbn; apply app_nil_s|].
  cbn [numerals]. change (String.concat "x" (n :: m :: l)) with (n ++ "x" ++ String.concat "x" (m :: l)).
  rewrite <- IH. reflexivity.
Qed.

Lemma repr_fields name p : params_rep p ->
  (exists n, numeral n (signum p) /\ contains ("signal_number=" ++ n ++ ",") (params_repr name p)) /\
  (exists ns, Forall2 numeral ns (shape p) /\ contains ("signal_shape=(" ++ String.concat "x" ns ++ ")") (params_repr name p)) /\
  (exists n, numeral n (steps p) /\ contains ("decomposition_steps=" ++ n ++ ",") (params_repr name p)) /\
  (forall t, nth_error type_names (Z.to_nat (wtype p)) = Some t -> (0 <= wtype p)%Z ->
     contains ("wavelet_type=WaveletType." ++ t ++ ">") (params_repr name p)) /\
  exists rest, params_repr name p = name ++ "<" ++ rest.
Proof.
  intros (P1 & _ & (P3 & _) & (P4 & _) & _).
  destruct (shape_numerals (shape p) P1 true) as (ES & FS). rewrite numerals_concat in ES.
  split; [|split; [|split; [|split]]].
  - exists (show_size (signum p)). split; [apply show_numeral; auto|].
    eexists (name ++ "<"), _. unfold params_repr. rewrite !app_assoc_s. reflexivity.
  - exists (map show_size (shape p)). split; [exact FS|].
    eexists (name ++ "<" ++ "signal_number=" ++ show_size (signum p) ++ ", "), _.
    unfold params_repr. rewrite !app_assoc_s, ES. reflexivity.
  - exists (show_size (steps p)). split; [apply show_numeral; auto|].
    eexists (name ++ "<" ++ "signal_number=" ++ show_size (signum p) ++ ", signal_shape=(" ++ shape_repr true (shape p) ++ "), "), _.
    unfold params_repr. rewrite !app_assoc_s. reflexivity.
  - intros t Ht H0.
    exists (name ++ "<" ++ "signal_number=" ++ show_size (signum p) ++ ", signal_shape=(" ++ shape_repr true (shape p)
        ++ "), decomposition_steps=" ++ show_size (steps p) ++ ", "), "".
    assert (C : (Z.to_nat (wtype p) < 6)%nat).
    { apply (nth_error_Some type_names). rewrite Ht. discriminate. }
    assert (C' : (wtype p = 0 \/ wtype p = 1 \/ wtype p = 2 \/ wtype p = 3 \/ wtype p = 4 \/ wtype p = 5)%Z) by lia.
    clear - Ht C'. unfold params_repr. rewrite !app_assoc_s.
    destruct C' as [E|[E|[E|[E|[E|E]]]]]; rewrite E in *; cbn in Ht; injection Ht as <-; reflexivity.
  - eexists. reflexivity.
Qed.
Lemma show_int_numeral z : exists n, numeral n (Z.abs z) /\ show_int z = (if (z <? 0)%Z then "-" else "") ++ n.
Proof.
  unfold show_int. destruct (Z.ltb_spec z 0) as [H|H].
  - exists (show_size (- z)). split; [|reflexivity]. rewrite Z.abs_neq by lia. apply show_numeral. lia.
  - exists (show_size z). split; [|reflexivity]. rewrite Z.abs_eq by lia. apply show_numeral. lia.
Qed.
Lemma print_fields row p : params_rep p ->
  contains ("signal_shape: " ++ row (shape p)) (print_params row p) /\
  (exists n, numeral n (signum p) /\ contains ("signal_number: " ++ n ++ endl) (print_params row p)) /\
  (exists n, numeral n (steps p) /\ contains ("decomposition_steps: " ++ n ++ endl) (print_params row p)) /\
  (exists n, numeral n (Z.abs (wtype p)) /\
     contains ("wavelet_type: " ++ (if (wtype p <? 0)%Z then "-" else "") ++ n ++ endl) (print_params row p)).
Proof.
  intros (P1 & _ & (P3 & _) & (P4 & _) & _). split; [|split; [|split]].
  - eexists ("WaveletParameters {" ++ endl ++ "  "), _. unfold print_params. rewrite !app_assoc_s. reflexivity.
  - exists (show_size (signum p)). split; [apply show_numeral; auto|].
    eexists ("WaveletParameters {" ++ endl ++ "  signal_shape: " ++ row (shape p) ++ "  "), _.
    unfold print_params. rewrite !app_assoc_s. reflexivity.
  - exists (show_size (steps p)). split; [apply show_numeral; auto|].
    eexists ("WaveletParameters {" ++ endl ++ "  signal_shape: " ++ row (shape p) ++ "  signal_number: " ++ show_size (signum p) ++ endl ++ "  "), _.
    unfold print_params. rewrite !app_assoc_s. reflexivity.
  - destruct (show_int_numeral (wtype p)) as (n & Hn & E). exists n. split; auto.
    exists ("WaveletParameters {" ++ endl ++ "  signal_shape: " ++ row (shape p) ++ "  signal_number: " ++ show_size (signum p) ++ endl ++
      "  decomposition_steps: " ++ show_size (steps p) ++ endl ++ "  "), "}".
    unfold print_params. rewrite E, !app_assoc_s. reflexivity.
Qed.
