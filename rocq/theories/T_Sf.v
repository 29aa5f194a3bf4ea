(** * T_Sf: the codes and the bit stream of the legacy compressor (C49-C52). *)
Require Import List ZArith Lia.
Import ListNotations.
From Verif Require Import M_Base M_Sf S_Sf P_Sf.
Open Scope Z_scope.

(** C50: any sequence of codes, written one after the other, is read back in
    order, whatever bytes follow. *)
Theorem C50_round_trip : forall cap codes tail,
  Forall is_code codes -> Forall byte tail -> total_bits codes <= 8 * Z.of_nat cap ->
  exists w, put_codes cap empty_writer codes = Ok w /\
    (w_out w ++ tail <> [] ->
     exists r, get_all (reader_at_start (w_out w ++ tail)) (map fst codes) = Ok (map snd codes, r)).
Proof.
  intros cap codes tail Hc Ht Hcap. destruct (total_bits_len codes Hc) as [Hl _].
  destruct (put_codes_ok cap codes empty_writer [] empty_ok Hc) as (w & E & Hw); [cbn [length]; lia|].
  exists w. split; [exact E|]. intros Hne.
  destruct (start_stream w _ tail Hw Ht Hne) as (Hr & rest & Hs). cbn [app] in Hs.
  destruct (get_all_ok codes _ rest Hc Hr Hs) as (r & -> & _). eauto.
Qed.
Print Assumptions C50_round_trip.

(** The output has the size of its codes, rounded up to bytes. *)
Theorem C50_size : forall cap codes,
  Forall is_code codes -> total_bits codes <= 8 * Z.of_nat cap ->
  exists w, put_codes cap empty_writer codes = Ok w /\
    (total_bits codes <= 8 * Z.of_nat (length (w_out w)) < total_bits codes + 8).
Proof.
  intros cap codes Hc Hcap. destruct (total_bits_len codes Hc) as [Hl H0].
  destruct (put_codes_ok cap codes empty_writer [] empty_ok Hc) as (w & E & Hw); [cbn [length]; lia|].
  exists w. cbn [app] in Hw. destruct Hw as (Hf & _ & Hs).
  apply (f_equal (@length _)) in Hs. rewrite flat_bits_len, app_length, repeat_length in Hs.
  split; [auto|lia].
Qed.
Print Assumptions C50_size.

(** Three codes that straddle the byte borders. *)
Example C50_case :
  Forall is_code [(3, 5); (12, 1000); (32, 4000000000); (0, 0); (1, 1)] /\
  (let* w := put_codes 6 empty_writer [(3, 5); (12, 1000); (32, 4000000000); (0, 0); (1, 1)] in
   let* (l, _) := get_all (reader_at_start (w_out w ++ [255])) [3; 12; 32; 0; 1] in Ok (w_out w, l))
  = Ok ([167; 209; 220; 214; 80; 1], [5; 1000; 4000000000; 0; 1]).
Proof.
  split; [|reflexivity].
  repeat (constructor; [unfold is_code; cbn [fst snd]; lia|]). constructor.
Qed.

(** ... and the output that does not fit in the buffer overruns it. *)
Theorem C50_always_fits_refuted : exists cap codes,
  Forall is_code codes /\ put_codes cap empty_writer codes = UB.
Proof.
  exists 1%nat, [(9, 1)]. split; [|reflexivity].
  repeat constructor; cbn [fst snd]; lia.
Qed.
Print Assumptions C50_always_fits_refuted.

(** C49: a number written with its code between any other codes is read back,
    and exactly its bits are consumed: what follows is read correctly too. *)
Theorem C49_round_trip : forall n sel cap before after tail,
  1 <= n <= 2 ^ 31 -> 0 <= sel < n ->
  Forall is_code before -> Forall is_code after -> Forall byte tail ->
  exists c, seven_of_nine sel n = Ok c /\ is_code c /\
    (total_bits (before ++ c :: after) <= 8 * Z.of_nat cap ->
     exists w, put_codes cap empty_writer (before ++ c :: after) = Ok w /\
       (w_out w ++ tail <> [] ->
        exists r0 r1 r2,
          get_all (reader_at_start (w_out w ++ tail)) (map fst before) = Ok (map snd before, r0) /\
          nine_of_seven r0 n = Ok (sel, r1) /\
          get_all r1 (map fst after) = Ok (map snd after, r2))).
Proof.
  intros n sel cap before after tail Hn Hsel Hb Ha Ht.
  destruct (nine_seven n sel Hn Hsel) as (c & Ec & Hc & _ & Hread).
  exists c. split; [exact Ec|]. split; [exact Hc|]. intros Hcap.
  assert (Hall : Forall is_code (before ++ c :: after)) by (apply Forall_app; auto).
  destruct (total_bits_len _ Hall) as [Hl _].
  destruct (put_codes_ok cap _ empty_writer [] empty_ok Hall) as (w & E & Hw); [cbn [length]; lia|].
  exists w. split; [exact E|]. intros Hne.
  destruct (start_stream w _ tail Hw Ht Hne) as (Hr & rest & Hs). cbn [app] in Hs.
  unfold codes_bits in Hs. rewrite flat_map_app in Hs. cbn [flat_map] in Hs. rewrite <- !app_assoc in Hs.
  destruct (get_all_ok before _ _ Hb Hr Hs) as (r0 & E0 & Hr0 & Hs0 & _).
  destruct (Hread r0 _ Hr0 Hs0) as (r1 & E1 & Hr1 & Hs1 & _).
  destruct (get_all_ok after _ _ Ha Hr1 Hs1) as (r2 & E2 & _).
  exists r0, r1, r2. auto.
Qed.
Print Assumptions C49_round_trip.

(** Five possibilities: zero takes one bit, the others three; 2^31
    possibilities, 31 bits. *)
Example C49_case :
  map (fun s => seven_of_nine s 5) [0; 1; 2; 3; 4] = [Ok (1, 0); Ok (3, 4); Ok (3, 5); Ok (3, 6); Ok (3, 7)] /\
  map (fun s => seven_of_nine s 10) [0; 1; 2; 3; 9] = [Ok (2, 0); Ok (3, 2); Ok (3, 3); Ok (3, 4); Ok (4, 15)] /\
  seven_of_nine 7 (2 ^ 31) = Ok (31, 7).
Proof. repeat split; reflexivity. Qed.

(** Beyond 2^31 possibilities the code is not defined. *)
Theorem C49_more_possibilities_refuted : exists n sel c,
  0 <= sel < n /\ n < 2 ^ 32 /\ seven_of_nine sel n = Ok c /\ ~ is_code c.
Proof.
  exists (2 ^ 31 + 1), (2 ^ 31), (31, 2 ^ 31).
  split; [lia|]. split; [lia|]. split; [vm_compute; reflexivity|].
  intros [_ H]. cbn [fst snd] in H. lia.
Qed.
Print Assumptions C49_more_possibilities_refuted.

(** C51: the search finds the first border that is not below the value. *)
Theorem C51_search : forall borders v,
  increasing borders -> (1 <= length borders <= 64)%nat ->
  exists k, find_pool borders v = Ok k /\ first_border borders v k.
Proof. exact find_pool_ok. Qed.
Print Assumptions C51_search.

Theorem C51_unique : forall borders v j k,
  first_border borders v j -> first_border borders v k -> j = k.
Proof. exact first_border_unique. Qed.
Print Assumptions C51_unique.

(** The two fixed tables compute the rounded logarithms. *)
Theorem C51_log2 : forall n, 1 <= n <= 2 ^ 31 ->
  find_pool last4 n = Ok (Z.log2_up n) /\ find_pool last5 n = Ok (Z.log2 n).
Proof. exact find_logs. Qed.
Print Assumptions C51_log2.

(** The tables the compressor searches are of this kind. *)
Theorem C51_tables : forall l, In l [last0; last1; last4; last5] ->
  increasing l /\ (1 <= length l <= 64)%nat.
Proof. exact tables_increasing. Qed.
Print Assumptions C51_tables.

Example C51_case :
  find_pool [0; 1; 2; 4; 6; 8; 12] 5 = Ok 4 /\ find_pool [0; 1; 2; 4; 6; 8; 12] 99 = Ok 6 /\
  find_pool last1 100 = Ok 14 /\ nth_error last1 13 = Some 96 /\ nth_error last1 14 = Some 128.
Proof. repeat split; reflexivity. Qed.

(** Sixty-five borders do not fit. *)
Theorem C51_more_pools_refuted : exists borders v,
  increasing borders /\ length borders = 65%nat /\ find_pool borders v = UB.
Proof. exact too_many_pools. Qed.
Print Assumptions C51_more_pools_refuted.

(** C52: an exponent is recovered from its code and the exponent before. *)
Theorem C52_exponent : forall before e, byte before -> byte e ->
  byte (exp_jump before e) /\ exp_unjump before (exp_jump before e) = e.
Proof. intros b e Hb He. split; [apply exp_jump_byte | apply exp_inverse]; auto. Qed.
Print Assumptions C52_exponent.

Theorem C52_sequence : forall l, Forall byte l -> exp_unjumps 127 (exp_jumps 127 l) = l.
Proof. intros l H. apply exps_inverse; [unfold byte; lia | auto]. Qed.
Print Assumptions C52_sequence.

Example C52_case :
  Forall byte [127; 130; 0; 255; 254; 1] /\
  exp_jumps 127 [127; 130; 0; 255; 254; 1] = [0; 6; 255; 255; 1; 254] /\
  exp_unjumps 127 [0; 6; 255; 255; 1; 254] = [127; 130; 0; 255; 254; 1].
Proof. split; [repeat constructor; lia|split; reflexivity]. Qed.
