(** * P_SfRound: Compress then Decompress: the whole stream *)
Require Import List ZArith Lia Bool ZifyBool.
Import ListNotations.
From Verif Require Import M_Base P_Base M_Archive M_Sf S_Sf P_Sf M_SfCodec S_SfCodec P_SfTable P_SfMerge P_SfCodec.
Open Scope Z_scope.

Definition usable (lens_of : list Z -> list Z -> Z -> res (list Z)) (last values : list Z) : Prop :=
  forall h, histogram last values = Ok h ->
  exists lens, lens_of last h (Z.of_nat (length values)) = Ok lens /\ length lens = pools_used h /\ complete_lens last lens.

Lemma codec_ok lens_of cap cap' o tl used :
  sparse o -> (length (o_values o) <= cap)%nat -> (length (o_values o) <= cap')%nat ->
  (4 * (74 + 3 * length (o_values o)) <= cap)%nat ->
  timeline (o_frag o) None 127 0 (o_indexes o) (o_values o) = Ok (tl, used) ->
  usable lens_of last0 (map e_exp tl) -> usable lens_of last1 (map e_zeros tl) ->
  exists blob, compress_with lens_of cap o = Ok (Some blob) /\
    (length blob <= 4 * (74 + 3 * length (o_values o)))%nat /\ Forall byte blob /\
    ((length blob <= cap')%nat ->
     exists im, decompress (new_impl cap') blob =
       Ok (Some (Origin (o_frag o) (o_row_based o) (o_rows o) (o_cols o) (o_indexes o)
                        (map (dec_word (o_frag o)) (o_values o))), im)).
Proof.
  intros [Hfr Hro Hco Hsz Hne Hlen Hidx Hnz] Hcap1 Hcap1' Hcap E U0 U1.
  assert (Hfl : 7 <= o_frag o <= 23) by lia.
  destruct (timeline_ok (o_frag o) (o_rows o * o_cols o) Hfl ltac:(lia) (o_indexes o) (o_values o) (-1) None 127 0)
    as (tl' & used' & E' & R & Hu & _ & Hsg); auto; try lia.
  assert (X : Ok (tl', used') = Ok (tl, used)) by congruence. inversion X; subst tl' used'. clear X E'.
  set (nv := length (o_values o)) in *.
  assert (Hnv : (1 <= nv)%nat) by (unfold nv; destruct (o_values o); [congruence|cbn [length]; lia]).
  pose proof (tl_rel_len _ _ _ _ _ _ R) as Ltl.
  assert (Hnn : Z.of_nat nv <= o_rows o * o_cols o).
  { pose proof (rising_count _ _ _ Hidx) as C. rewrite Hlen in C. fold nv in C.
    assert (o_indexes o <> []) by (intros X; rewrite X in Hlen; cbn [length] in Hlen; lia). specialize (C H). lia. }
  assert (Hu1 : 1 <= used).
  { destruct tl as [|en tl0]; [cbn [length] in Ltl; lia|]. inversion Hsg as [|? ? (s & f & _ & Hs & _ & Hlor) _]; subst.
    destruct (Z.eq_dec used 0) as [->|]; [|lia]. rewrite Z.lor_0_r in Hlor. lia. }
  destruct (histogram_ok last0 (map e_exp tl)) as (k0 & _ & H0 & _).
  { apply (tables_increasing last0); left; reflexivity. }
  { vm_compute; lia. }
  destruct (histogram_ok last1 (map e_zeros tl)) as (k1 & _ & H1 & _).
  { apply last1_inc. }
  { rewrite last1_len; lia. }
  set (h0 := map _ (seq 0 (length last0))) in H0. set (h1 := map _ (seq 0 (length last1))) in H1.
  destruct (U0 _ H0) as (lens0 & L0 & N0 & C0). destruct (U1 _ H1) as (lens1 & L1 & N1 & C1).
  rewrite map_length in L0, L1.
  destruct (out_pools_ok last0 lens0 small0 C0) as (ps2 & O2 & K2 & T2 & F2).
  destruct (out_pools_ok last1 lens1 small1 C1) as (ps3 & O3 & K3 & T3 & F3).
  pose proof (first_short _ _ C0 F2) as S2.
  assert (Hp2 : rd ps2 0 = Ok (hd opool0 ps2) /\ 0 <= p_len (hd opool0 ps2)).
  { destruct ps2; [destruct K2|]. destruct K2. split; [reflexivity|auto]. }
  assert (Hp3 : rd ps3 0 = Ok (hd opool0 ps3) /\ 0 <= p_len (hd opool0 ps3) <= 31).
  { destruct ps3 as [|p ps3]; [destruct K3|]. destruct K3 as (K3 & K3'). split; [reflexivity|]. cbn [hd table] in *. lia. }
  assert (Hrange : Forall (fun en => 0 <= e_zeros en <= top ps3 /\ 0 <= e_exp en <= top ps2) tl).
  { pose proof (tl_rel_range _ _ _ _ _ _ R ltac:(unfold byte; lia) ltac:(lia)) as Rg.
    rewrite Forall_forall in Rg |- *. intros en Hen. specialize (Rg en Hen). split.
    - split; [lia|]. apply (values_in_top last1 (map e_zeros tl) h1 (length lens1)); auto.
      + apply last1_inc.
      + rewrite last1_len; lia.
      + apply in_map; auto.
      + replace (List.last last1 0) with (2 ^ 31) by (vm_compute; reflexivity). lia.
    - split; [lia|]. apply (values_in_top last0 (map e_exp tl) h0 (length lens0)); auto.
      + apply (tables_increasing last0); left; reflexivity.
      + vm_compute; lia.
      + apply in_map; auto.
      + replace (List.last last0 0) with 256 by (vm_compute; reflexivity). lia. }
  destruct (description_reads last0 ps2 small0 K2) as (d2 & D2 & DL2 & _ & DR2).
  destruct (description_reads last1 ps3 small1 K3) as (d3 & D3 & DL3 & _ & DR3).
  destruct (timeline_codes_ok (o_frag o) ps2 ps3 used Hfl K2 K3 ltac:(lia) tl (o_indexes o) (o_values o) (-1) 127 0 cap' R
              ltac:(unfold byte; lia) ltac:(lia) Hsg Hrange ltac:(lia)) as (ct & CT & CL & CR).
  (* the header *)
  set (mx := Z.max (o_rows o) (o_cols o)).
  assert (Hmx : 1 <= mx < 2 ^ 31) by lia.
  set (rcl := Z.log2_up (mx + 1)).
  destruct (find_logs (mx + 1) ltac:(lia)) as (Hrcl & _). fold rcl in Hrcl.
  assert (Hr1 : 0 < rcl <= 31).
  { split; [apply Z.log2_up_pos; lia|]. replace 31 with (Z.log2_up (2 ^ 31)) by reflexivity. apply Z.log2_up_le_mono. lia. }
  assert (Hr2 : mx < 2 ^ rcl) by (pose proof (Z.log2_up_spec (mx + 1) ltac:(lia)); unfold rcl; lia).
  assert (Hr3 : 2 ^ rcl <= 2 ^ 31) by (apply pow2_le; lia).
  set (rb := if o_row_based o then 1 else 0).
  set (poss := o_rows o * o_cols o + 1).
  set (fc := if o_frag o <? 22 then o_frag o - 7 else o_frag o - 8).
  assert (Hfc : 0 <= fc < 16) by (unfold fc; destruct (Z.ltb_spec (o_frag o) 22); lia).
  destruct (reads_nine 32 rcl ltac:(lia) ltac:(lia)) as (c3 & E3 & I3 & _ & R3).
  destruct (reads_nine (2 ^ rcl) (o_rows o) ltac:(lia) ltac:(lia)) as (c4 & E4 & I4 & _ & R4).
  destruct (reads_nine (2 ^ rcl) (o_cols o) ltac:(lia) ltac:(lia)) as (c5 & E5 & I5 & _ & R5).
  destruct (reads_nine 4 used ltac:(lia) ltac:(lia)) as (c6 & E6 & I6 & _ & R6).
  destruct (reads_nine poss (Z.of_nat nv) ltac:(unfold poss; lia) ltac:(unfold poss; lia)) as (c7 & E7 & I7 & _ & R7).
  destruct (reads_nine 16 fc ltac:(lia) ltac:(lia)) as (c8 & E8 & I8 & _ & R8).
  destruct (reads_nine 8 (p_len (hd opool0 ps2)) ltac:(lia) ltac:(lia)) as (c9 & E9 & I9 & _ & R9).
  destruct (reads_nine 32 (p_len (hd opool0 ps3)) ltac:(lia) ltac:(lia)) as (c10 & E10 & I10 & _ & R10).
  pose proof (reads_bits 2 0 ltac:(lia) ltac:(lia)) as R1.
  assert (Hrb : 0 <= rb < 2 ^ 1) by (unfold rb; destruct (o_row_based o); cbn; lia).
  pose proof (reads_bits 1 rb ltac:(lia) Hrb) as R2.
  assert (Hhead : header o used (Z.of_nat nv) ps2 ps3
    = Ok ([(2, 0); (1, rb); c3; c4; c5; c6; c7; c8; c9; c10], Some true, rcl)).
  { unfold header. rewrite !(w32_id (o_rows o)), !(w32_id (o_cols o)) by lia.
    change (seven_of_nine 0 4) with (@Ok (Z * Z) (2, 0)). cbn [bind]. fold rb.
    assert (Erb : seven_of_nine rb 2 = Ok (1, rb)) by (change 2 with (2 ^ 1); apply seven_pow2; lia).
    rewrite Erb. cbn [bind]. fold mx. rewrite (w32_id (mx + 1)) by lia. rewrite Hrcl. cbn [bind].
    rewrite E3. cbn [bind]. destruct (Z.ltb_spec 0 rcl); [|lia]. rewrite pow2i_ok by lia. cbn [bind].
    rewrite E4. cbn [bind]. rewrite E5. cbn [bind]. rewrite E6. cbn [bind].
    destruct (Z.ltb_spec 0 used); [|lia]. fold poss. rewrite (w32_id poss) by (unfold poss; lia).
    rewrite E7. cbn [bind]. fold fc. rewrite E8. cbn [bind]. destruct Hp2 as (-> & _). cbn [bind].
    rewrite E9. cbn [bind]. destruct (Z.ltb_spec (Z.of_nat nv) poss); [|unfold poss in *; lia].
    destruct Hp3 as (-> & _). cbn [bind]. rewrite E10. reflexivity. }
  set (codes := [(2, 0); (1, rb); c3; c4; c5; c6; c7; c8; c9; c10] ++ d2 ++ d3 ++ ct).
  assert (Hbody : body o used tl ps2 ps3 = Ok codes).
  { unfold body. rewrite Ltl, Hlen. fold nv. rewrite Hhead. cbn [bind]. destruct (Z.ltb_spec 0 rcl); [|lia].
    rewrite D2. cbn [bind]. rewrite D3. cbn [bind].
    rewrite pow2i_ok by (destruct (used =? 3); lia). cbn [bind]. rewrite CT. reflexivity. }
  assert (Hcodes : Forall is_code codes).
  { unfold codes. apply Forall_app; split; [|apply Forall_app; split; [apply DR2|apply Forall_app; split; [apply DR3|apply CR]]].
    constructor; [apply R1 with (1 := I3) || (split; cbn [fst snd]; lia)|].
    constructor; [split; cbn [fst snd]; lia|].
    repeat (constructor; auto). }
  assert (Hlc : (length codes <= 74 + 3 * nv)%nat).
  { unfold codes. rewrite !app_length. cbn [length]. rewrite Ltl, Hlen in CL. fold nv in CL. lia. }
  assert (Htot : total_bits codes <= 32 * Z.of_nat (length codes)).
  { apply total_31. eapply Forall_impl; [|apply Hcodes]. intros c [? _]. lia. }
  destruct (total_bits_len codes Hcodes) as [Htl _].
  destruct (put_codes_ok cap codes empty_writer [] empty_ok Hcodes) as (w & Ew & Hw); [cbn [length]; lia|]. cbn [app] in Hw.
  exists (w_out w).
  split; [|split; [|split]].
  - unfold compress_with. fold nv.
    replace ((o_frag o <? 7) || (23 <? o_frag o) || (o_frag o =? 22)) with false by lia.
    rewrite (Z.mod_small (o_cols o * o_rows o)) by lia.
    destruct (Z.ltb_spec (o_cols o * o_rows o) (Z.of_nat nv)); [lia|].
    rewrite Hlen. fold nv. rewrite Nat.eqb_refl. cbn [negb].
    rewrite guard_true by (apply Nat.leb_le; lia). cbn [bind]. rewrite E. cbn [bind].
    rewrite H0. cbn [bind]. rewrite H1. cbn [bind]. rewrite L0. cbn [bind]. rewrite L1. cbn [bind].
    rewrite O2. cbn [bind]. rewrite O3. cbn [bind].
    rewrite !w32_id by lia. destruct (Z.ltb_spec (2 ^ 31) (o_rows o * o_cols o)); [lia|].
    rewrite Hbody. cbn [bind]. unfold empty_writer in Ew. rewrite Ew. reflexivity.
  - destruct Hw as (Hf & _ & Hs). apply (f_equal (@length _)) in Hs.
    rewrite flat_bits_len, app_length, repeat_length in Hs. lia.
  - apply Hw.
  - intros Hblob. unfold decompress, new_impl. cbn [i_data i_p2 i_p3]. rewrite repeat_length.
    rewrite guard_true by (apply Nat.leb_le; lia). cbn [bind].
    set (tail := skipn (length (w_out w)) (repeat 0 cap')).
    assert (Htail : Forall byte tail).
    { unfold tail. apply Forall_forall. intros x Hx. assert (In x (repeat 0 cap')).
      { rewrite <- (firstn_skipn (length (w_out w)) (repeat 0 cap')). apply in_or_app; auto. }
      apply repeat_spec in H. subst. unfold byte; lia. }
    assert (Hlt : length (w_out w ++ tail) = cap').
    { unfold tail. rewrite app_length, skipn_length, repeat_length. lia. }
    destruct (start_stream w (codes_bits codes) tail Hw Htail) as (Hr & rest & Hst).
    { intros X. rewrite X in Hlt. cbn [length] in Hlt. lia. }
    unfold reader_at_start in *. set (r0 := Reader (w_out w ++ tail) 0 8) in *.
    unfold codes in Hst.
    change ([(2, 0); (1, rb); c3; c4; c5; c6; c7; c8; c9; c10] ++ d2 ++ d3 ++ ct)
      with ([(2, 0)] ++ [(1, rb)] ++ [c3] ++ [c4] ++ [c5] ++ [c6] ++ [c7] ++ [c8] ++ [c9] ++ [c10] ++ d2 ++ d3 ++ ct) in Hst.
    rewrite !codes_bits_app, <- !app_assoc in Hst.
    destruct (proj2 R1 r0 _ Hr Hst) as (r1 & -> & Hr1' & Hs1 & _). cbn [bind].
    change (0 =? 0) with true. cbv iota.
    destruct (proj2 R2 r1 _ Hr1' Hs1) as (r2 & -> & Hr2' & Hs2 & _). cbn [bind].
    destruct (proj2 R3 r2 _ Hr2' Hs2) as (r3 & -> & Hr3' & Hs3 & _). cbn [bind].
    rewrite pow2i_ok by lia. cbn [bind].
    destruct (proj2 R4 r3 _ Hr3' Hs3) as (r4 & -> & Hr4' & Hs4 & _). cbn [bind].
    destruct (proj2 R5 r4 _ Hr4' Hs4) as (r5 & -> & Hr5' & Hs5 & _). cbn [bind].
    destruct (proj2 R6 r5 _ Hr5' Hs5) as (r6 & -> & Hr6' & Hs6 & _). cbn [bind].
    fold poss. rewrite (w32_id poss) by (unfold poss; lia).
    destruct (proj2 R7 r6 _ Hr6' Hs6) as (r7 & -> & Hr7' & Hs7 & _). cbn [bind].
    destruct (proj2 R8 r7 _ Hr7' Hs7) as (r8 & -> & Hr8' & Hs8 & _). cbn [bind].
    assert (Efl : (if 14 <? fc then fc + 8 else fc + 7) = o_frag o).
    { unfold fc. destruct (Z.ltb_spec (o_frag o) 22).
      - destruct (Z.ltb_spec 14 (o_frag o - 7)); lia.
      - destruct (Z.ltb_spec 14 (o_frag o - 8)); lia. }
    rewrite Efl.
    destruct (proj2 R9 r8 _ Hr8' Hs8) as (r9 & -> & Hr9' & Hs9 & _). cbn [bind].
    destruct (Z.ltb_spec (Z.of_nat nv) poss) as [_|]; [|unfold poss in *; lia].
    destruct (proj2 R10 r9 _ Hr9' Hs9) as (r10 & -> & Hr10' & Hs10 & _). cbn [bind].
    destruct (proj2 DR2 r10 _ Hr10' Hs10) as (r11 & -> & Hr11' & Hs11 & _).
    destruct (read_as ps2) as [q2 m2] eqn:Q2. cbn [bind].
    destruct (proj2 DR3 r11 _ Hr11' Hs11) as (r12 & -> & Hr12' & Hs12 & _).
    destruct (read_as ps3) as [q3 m3] eqn:Q3. cbn [bind].
    cbn [fst snd] in CR. rewrite Nat2Z.id. rewrite Ltl, Hlen in CR. fold nv in CR.
    change (w32 (-1)) with (2 ^ 32 - 1) in CR.
    destruct (proj2 CR r12 _ Hr12' Hs12) as (r13 & -> & _). cbn [bind].
    exists (Impl (r_data r13) q2 q3). f_equal. f_equal. f_equal. f_equal.
    unfold rb. destruct (o_row_based o); reflexivity.
Qed.
