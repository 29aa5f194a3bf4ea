(** * P_SfCases: what Compress refuses, and a second call of Decompress *)
Require Import List ZArith Bool Lia ZifyBool.
Import ListNotations.
From Verif Require Import M_Base P_Base M_Archive P_Archive M_Sf M_SfCodec S_SfCodec P_SfCodec P_SfRound P_SfSmall P_SfValue.
Open Scope Z_scope.

Lemma timeline_exists o : sparse o -> exists tl used, timeline (o_frag o) None 127 0 (o_indexes o) (o_values o) = Ok (tl, used).
Proof.
  intros [Hfr Hro Hco Hsz Hne Hlen Hidx Hnz].
  destruct (timeline_ok (o_frag o) (o_rows o * o_cols o) ltac:(lia) ltac:(lia) (o_indexes o) (o_values o) (-1) None 127 0)
    as (tl & used & E & _); auto; try lia. eauto.
Qed.
Lemma decoded_kept o : sparse o -> map (dec_word (o_frag o)) (o_values o) = map (kept (o_frag o)) (o_values o).
Proof.
  intros [Hfr _ _ _ _ _ _ Hnz]. induction Hnz as [|v t Hv Ht IH]; [reflexivity|]. cbn [map].
  rewrite dec_word_bits by (auto; lia). f_equal. exact IH.
Qed.

Theorem small_round_trip cap cap' o :
  sparse o -> o_rows o * o_cols o <= 2 ^ 15 -> (4 * (74 + 3 * length (o_values o)) <= cap)%nat ->
  exists blob, compress cap o = Ok (Some blob) /\ (length blob <= 4 * (74 + 3 * length (o_values o)))%nat /\
    Forall is_byte blob /\
    ((length blob <= cap')%nat -> (length (o_values o) <= cap')%nat ->
     exists im, decompress (new_impl cap') blob = Ok (Some (read_back o), im)).
Proof.
  intros Hs HN Hc. destruct (timeline_exists o Hs) as (tl & used & E).
  destruct (small_usable o tl used Hs HN E) as (U0 & U1).
  destruct (codec_ok code_lens cap (length (o_values o)) o tl used Hs ltac:(lia) ltac:(lia) Hc E U0 U1) as (blob & C1 & C2 & C3 & _).
  exists blob. split; [exact C1|]. split; [exact C2|]. split.
  { eapply Forall_impl; [|apply C3]. intros b Hb. exact Hb. }
  intros H1 H2. destruct (codec_ok code_lens cap cap' o tl used Hs ltac:(lia) H2 Hc E U0 U1) as (blob' & C1' & _ & _ & C4).
  assert (blob' = blob) by (unfold compress in C1; congruence). subst blob'.
  destruct (C4 H1) as (im & D). exists im. rewrite D. unfold read_back. rewrite (decoded_kept o Hs). reflexivity.
Qed.

Lemma compress_refused cap o :
  (o_frag o < 7 \/ 23 < o_frag o \/ o_frag o = 22) \/
  (o_cols o * o_rows o < Z.of_nat (length (o_values o)) /\ 0 <= o_cols o * o_rows o) \/
  length (o_values o) <> length (o_indexes o) ->
  compress cap o = Ok None.
Proof.
  intros H. unfold compress, compress_with.
  destruct ((o_frag o <? 7) || (23 <? o_frag o) || (o_frag o =? 22)) eqn:E1; [reflexivity|].
  destruct H as [H|[(H & H0)|H]]; [lia| |].
  - assert (X : (o_cols o * o_rows o) mod 2 ^ 64 <= o_cols o * o_rows o) by (apply Z.mod_le; lia).
    destruct (Z.ltb_spec ((o_cols o * o_rows o) mod 2 ^ 64) (Z.of_nat (length (o_values o)))); [reflexivity|lia].
  - destruct ((o_cols o * o_rows o) mod 2 ^ 64 <? Z.of_nat (length (o_values o))); [reflexivity|].
    destruct (Nat.eqb_spec (length (o_values o)) (length (o_indexes o))); [lia|reflexivity].
Qed.

Definition bits_of (o : origin) := (o_frag o, o_row_based o, o_rows o, o_cols o, o_indexes o, map wbits (o_values o)).
Lemma origin_eq a b : bits_of a = bits_of b -> a = b.
Proof.
  destruct a as [a1 a2 a3 a4 a5 a6], b as [b1 b2 b3 b4 b5 b6]. unfold bits_of. cbn. intros H. inversion H; subst. f_equal.
  clear H. revert b6 H6. induction a6 as [|x a6 IH]; intros [|y b6] H; try discriminate; [reflexivity|].
  cbn in H. inversion H. f_equal; [apply word_eq; auto|auto].
Qed.

Definition stream_of (r : res (option (list Z))) : list Z := match r with Ok (Some b) => b | _ => [] end.
Definition answer (r : res (option origin * impl)) :=
  match r with Ok (Some o, _) => Some (bits_of o) | _ => None end.
Lemma answer_some r x : answer r = Some x -> exists o im, r = Ok (Some o, im) /\ bits_of o = x.
Proof. destruct r as [[[o|] im]| |]; cbn; try discriminate. intros H. inversion H. eauto. Qed.

Definition first_matrix : origin :=
  Origin 23 true 4 4 [1; 3; 7; 8] (map mkword [1067030938; 3; 3225000000; 1072693248]).
Definition second_matrix : origin := Origin 23 true 1 2 [0; 1] (map mkword [1069547521; 1069547521]).

Definition blob1 := Eval vm_compute in stream_of (compress 1000 first_matrix).
Definition blob2 := Eval vm_compute in stream_of (compress 1000 second_matrix).

Lemma reuse_wrong :
  exists b1 b2 im r o, compress 1000 first_matrix = Ok (Some b1) /\ compress 1000 second_matrix = Ok (Some b2) /\
    decompress (new_impl 100) b1 = Ok (Some r, im) /\
    (exists im', decompress (new_impl 100) b2 = Ok (Some second_matrix, im')) /\
    (exists im', decompress im b2 = Ok (Some o, im')) /\ o_indexes o = [2; 3].
Proof.
  exists blob1, blob2.
  assert (D1 : answer (decompress (new_impl 100) blob1) <> None) by (vm_compute; discriminate).
  destruct (answer (decompress (new_impl 100) blob1)) eqn:E; [|congruence].
  destruct (answer_some _ _ E) as (r & im & E1 & _).
  assert (D2 : answer (decompress (new_impl 100) blob2) = Some (bits_of second_matrix)) by (vm_compute; reflexivity).
  destruct (answer_some _ _ D2) as (o2 & im2 & E2 & F2). apply origin_eq in F2. subst o2.
  assert (D3 : exists o im', decompress im blob2 = Ok (Some o, im') /\ o_indexes o = [2; 3]).
  { assert (X : answer (let* (_, im) := decompress (new_impl 100) blob1 in decompress im blob2)
                = Some (23, true, 1, 2, [2; 3], [1065353240; 1065353472])) by (vm_compute; reflexivity).
    rewrite E1 in X. cbn [bind] in X. destruct (answer_some _ _ X) as (o & im' & E3 & F3). exists o, im'. split; [exact E3|].
    unfold bits_of in F3. congruence. }
  destruct D3 as (o & im3 & E3 & F3). exists im, r, o.
  split; [vm_compute; reflexivity|]. split; [vm_compute; reflexivity|]. eauto 10.
Qed.
