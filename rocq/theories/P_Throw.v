(** Decompose with a denoiser that may throw: proofs. *)
Require Import List Bool Arith ZArith Lia Psatz.
Require Import ZifyBool.
Require Import Verif.M_Base Verif.M_Params Verif.M_Padding Verif.M_Wavelet Verif.M_Buffer Verif.M_Throw.
Require Import Verif.S_Params Verif.S_Padding Verif.S_Buffer Verif.S_Throw.
Require Import Verif.P_Base Verif.P_Wavelet Verif.P_Buffer Verif.P_Impl Verif.P_Api Verif.P_Api2.
Import ListNotations.
Open Scope nat_scope.

Section T.
Context {T : Type} {A : Arith T}.

(** ** The writes of one channel on lists *)
Section Mix.
Variable cl : nat -> mat T -> option (mat T).

Fixpoint mix (i : nat) (l old : list (mat T)) : list (mat T) * bool :=
  match l, old with
  | m :: t, o :: os =>
      match cl i m with
      | None => (o :: os, true)
      | Some m' => let '(r, b) := mix (S i) t os in (m' :: r, b)
      end
  | _, _ => (old, false)
  end.

Lemma mix_len l : forall i old, length (fst (mix i l old)) = length old.
Proof.
  induction l as [|m l IH]; intros i [|o old]; simpl; auto.
  destruct (cl i m); [|reflexivity]. specialize (IH (S i) old).
  destruct (mix (S i) l old) as (r, b). simpl in *. lia.
Qed.

Lemma mix_app l1 : forall i o1 l2 o2, length l1 = length o1 ->
  mix i (l1 ++ l2) (o1 ++ o2) =
  let '(r, b) := mix i l1 o1 in
  if b then (r ++ o2, true)
  else let '(r2, b2) := mix (i + length l1) l2 o2 in (r ++ r2, b2).
Proof.
  induction l1 as [|m l1 IH]; intros i [|o o1] l2 o2 HL; simpl in HL; try discriminate.
  - simpl. rewrite Nat.add_0_r. destruct (mix i l2 o2) as (r, b). reflexivity.
  - simpl. destruct (cl i m); [|reflexivity]. rewrite IH by lia.
    replace (i + S (length l1)) with (S i + length l1) by lia.
    destruct (mix (S i) l1 o1) as (r, b). destruct b; [reflexivity|].
    destruct (mix (S i + length l1) l2 o2) as (r2, b2). reflexivity.
Qed.

(** with the first k writes done and the next one not *)
Lemma mix_spec l : forall i old k, length l = length old -> k <= length l ->
  (forall j m, j < k -> nth_error l j = Some m -> cl (i + j) m <> None) ->
  (forall m, nth_error l k = Some m -> cl (i + k) m = None) ->
  exists r, mix i l old = (r, k <? length l) /\
    forall j, nth_error r j =
      if j <? k then match nth_error l j with Some m => cl (i + j) m | None => None end
      else nth_error old j.
Proof.
  induction l as [|m l IH]; intros i [|o old] k HL Hk H1 H2; simpl in HL, Hk; try discriminate.
  - assert (k = 0) by lia. subst k. exists []. simpl. split; auto.
  - destruct k as [|k].
    + specialize (H2 m eq_refl). rewrite !Nat.add_0_r in H2. exists (o :: old). simpl. rewrite H2. auto.
    + pose proof (H1 0 m ltac:(lia) eq_refl) as H0. rewrite !Nat.add_0_r in H0.
      destruct (cl i m) as [m'|] eqn:E; [|congruence].
      destruct (IH (S i) old k ltac:(lia) ltac:(lia)) as (r & Er & Hr).
      { intros j x Hj Hx. replace (S i + j) with (i + S j) by lia. apply H1; [lia|exact Hx]. }
      { intros x Hx. replace (S i + k) with (i + S k) by lia. apply H2. exact Hx. }
      exists (m' :: r). simpl mix. rewrite E, Er. simpl length.
      replace (S k <? S (length l)) with (k <? length l) by (destruct (Nat.ltb_spec k (length l)); lia).
      split; [reflexivity|].
      intros [|j].
      * cbn [nth_error]. rewrite !Nat.add_0_r. simpl. auto.
      * cbn [nth_error]. rewrite Hr. replace (S j <? S k) with (j <? k) by lia.
        replace (S i + j) with (i + S j) by lia. reflexivity.
Qed.

Lemma put_all_mix call l : forall i pre old post n, length l = length old ->
  (forall j m, j < length l -> cl (i + j) m = call (n + j) m) ->
  exists n', put_all call l (pre ++ old ++ post) (length pre) n =
    (let '(r, b) := mix i l old in Ok (pre ++ r ++ post, n', b)) /\
    (snd (mix i l old) = false -> n' = n + length l).
Proof.
  induction l as [|m l IH]; intros i pre [|o old] post n HL Hc; simpl in HL; try discriminate.
  - exists n. split; [reflexivity|]. simpl. lia.
  - pose proof (Hc 0 m ltac:(simpl; lia)) as H0. rewrite !Nat.add_0_r in H0.
    cbn [put_all mix]. rewrite <- H0. destruct (cl i m) as [m'|]; [|exists (S n); split; [reflexivity|discriminate]].
    rewrite wr_lt by (rewrite !app_length; simpl; lia). cbn [bind].
    change (pre ++ (o :: old) ++ post) with (pre ++ o :: (old ++ post)). rewrite upd_app.
    replace (S (length pre)) with (length (pre ++ [m'])) by (rewrite app_length; simpl; lia).
    replace (pre ++ m' :: old ++ post) with ((pre ++ [m']) ++ old ++ post) by (rewrite <- app_assoc; reflexivity).
    destruct (IH (S i) (pre ++ [m']) old post (S n)) as (n' & E & Hn).
    { lia. }
    { intros j x Hj. replace (S i + j) with (i + S j) by lia. replace (S n + j) with (n + S j) by lia. apply Hc. simpl; lia. }
    exists n'. rewrite E. destruct (mix (S i) l old) as (r, b). cbn [snd] in *.
    split; [rewrite <- app_assoc; reflexivity|]. intros Hb. rewrite (Hn Hb). simpl. lia.
Qed.

End Mix.

Lemma mix_ext cl cl' l : forall i old, (forall j m, j < length l -> cl (i + j) m = cl' (i + j) m) -> mix cl i l old = mix cl' i l old.
Proof.
  induction l as [|m l IH]; intros i [|o old] H; auto. cbn [mix].
  pose proof (H 0 m ltac:(simpl; lia)) as H0. rewrite Nat.add_0_r in H0. rewrite <- H0.
  destruct (cl i m); [|reflexivity]. rewrite (IH (S i)); [reflexivity|].
  intros j x Hj. replace (S i + j) with (i + S j) by lia. apply H. simpl; lia.
Qed.

Lemma raw_null dim wm (signal : mat T) s : raw_step dim wm signal = one_side_step dim null_denoiser wm signal s.
Proof.
  unfold raw_step, one_side_step, one_side_step_1d, one_side_step_2d. destruct (dim =? 1).
  - destruct (mcol signal 0); auto. cbn [bind]. destruct (rd wm 0); auto. cbn [bind].
    destruct (dwt a a0); auto. cbn [bind null_denoiser den1]. rewrite Nat.eqb_refl. reflexivity.
  - reflexivity.
Qed.

(** the subbands handed to Denoise in step s *)
Definition raws (g : geom) (x : nat -> nat -> T) (s : nat) : list (mat T) :=
  map (fun m => den_apply (gdim g) null_denoiser m s) (detm g x s).

Lemma raws_length g x s : length (raws g x s) = gspw g.
Proof. unfold raws. rewrite map_length. apply detm_length. Qed.

Lemma all_raws_length g x n : length (flat_map (raws g x) (seq 0 n)) = n * gspw g.
Proof. apply flat_map_seq_length. intros. apply raws_length. Qed.

Lemma spw_pos_e g : 1 <= gspw g.
Proof. unfold gspw. destruct (gdim g =? 1); lia. Qed.

Definition clp (dim spw : nat) (den : fallible T) (i n : nat) (m : mat T) : option (mat T) :=
  if dim =? 1 then call_1d den (i / spw) n m else call_2d den (i / spw) n m.

Lemma steps_e g den mats x (dec : decomposition T) n0 n :
  gwf g -> mats_ok g mats -> n <= gK g -> length dec = gK g * gspw g + 1 ->
  exists r n1 b sig,
    mix (fun i m => clp (gdim g) (gspw g) den i (n0 + i) m) 0 (flat_map (raws g x) (seq 0 n)) (firstn (n * gspw g) dec) = (r, b) /\
    loop n 0 (fun step (st : decomposition T * nat * bool * mat T) =>
      let '(dec, n, raised, signal) := st in
      if raised then Ok st
      else
        let* wm := mats step in
        let* r := raw_step (gdim g) wm signal in
        let* w := put_all (if gdim g =? 1 then call_1d den step else call_2d den step)
                    (fst r) dec (step * gspw g) n in
        Ok (w, snd r)) (dec, n0, false, apm g x 0)
    = Ok (r ++ skipn (n * gspw g) dec, n1, b, sig) /\ (b = false -> sig = apm g x n /\ n1 = n0 + n * gspw g).
Proof.
  intros G HM. set (cl := fun i m => clp (gdim g) (gspw g) den i (n0 + i) m). induction n; intros Hn HL.
  - exists [], n0, false, (apm g x 0). cbn [seq flat_map mix Nat.mul firstn skipn loop]. rewrite Nat.add_0_r. auto.
  - destruct (IHn ltac:(lia) HL) as (r & n1 & b & sig & E1 & E2 & E3).
    rewrite loop_snoc, E2. cbn [bind]. rewrite Nat.add_0_l.
    assert (HK : S n * gspw g <= gK g * gspw g) by (apply Nat.mul_le_mono_r; lia).
    assert (Ef : firstn (S n * gspw g) dec = firstn (n * gspw g) dec ++ firstn (gspw g) (skipn (n * gspw g) dec)).
    { rewrite <- (firstn_skipn (n * gspw g) (firstn (S n * gspw g) dec)).
      rewrite firstn_firstn. replace (Nat.min (n * gspw g) (S n * gspw g)) with (n * gspw g) by (simpl; lia).
      f_equal. rewrite skipn_firstn_comm. f_equal. simpl; lia. }
    assert (Es : skipn (n * gspw g) dec = firstn (gspw g) (skipn (n * gspw g) dec) ++ skipn (S n * gspw g) dec).
    { rewrite <- (firstn_skipn (gspw g) (skipn (n * gspw g) dec)) at 1.
      f_equal. rewrite skipn_skipn_add. f_equal. simpl; lia. }
    assert (Hlo : length (firstn (gspw g) (skipn (n * gspw g) dec)) = gspw g).
    { rewrite firstn_length, skipn_length. simpl in HK. lia. }
    set (mid := firstn (gspw g) (skipn (n * gspw g) dec)) in *.
    rewrite Ef, flat_map_seq_S, mix_app by (rewrite all_raws_length, firstn_length; simpl in HK; lia).
    rewrite E1. rewrite Es. destruct b.
    + exists (r ++ mid), n1, true, sig. split; [reflexivity|]. rewrite <- app_assoc. split; [reflexivity|discriminate].
    + destruct (E3 eq_refl) as (-> & ->).
      specialize (HM n ltac:(lia)) as HMn.
      destruct (mats n) as [wm| |] eqn:Ewm; try (destruct (gdim g =? 1); discriminate).
      cbn [bind]. rewrite (raw_null _ _ _ n).
      rewrite (one_side_step_ok g null_denoiser mats) by (auto; lia). cbn [bind fst snd].
      fold (raws g x n).
      assert (HR : length r = n * gspw g).
      { pose proof (mix_len cl (flat_map (raws g x) (seq 0 n)) 0 (firstn (n * gspw g) dec)) as H.
        rewrite E1 in H. cbn [fst] in H. rewrite H, firstn_length. simpl in HK. lia. }
      rewrite all_raws_length.
      destruct (put_all_mix cl (if gdim g =? 1 then call_1d den n else call_2d den n) (raws g x n) (0 + n * gspw g) r mid
                  (skipn (S n * gspw g) dec) (n0 + n * gspw g)) as (n2 & E4 & E5).
      * rewrite raws_length. auto.
      * intros j m Hj. rewrite raws_length in Hj. unfold cl, clp.
        rewrite Nat.add_0_l, Nat.div_add_l by lia. rewrite Nat.div_small by lia. rewrite Nat.add_0_r, Nat.add_assoc.
        destruct (gdim g =? 1); reflexivity.
      * rewrite HR in E4.
        destruct (mix cl (0 + n * gspw g) (raws g x n) mid) as (r2, b2). rewrite E4. cbn [bind].
        exists (r ++ r2), n2, b2, (apm g x (S n)). split; [reflexivity|].
        rewrite <- app_assoc. split; [reflexivity|]. intros Hb. split; [reflexivity|].
        rewrite (E5 Hb), raws_length. simpl. lia.
Qed.

(** one channel, all subbands: details and approximation *)
Definition cla (dim spw N : nat) (den : fallible T) (mem : bool) (n0 i : nat) (m : mat T) : option (mat T) :=
  if i <? N then clp dim spw den i (n0 + i) m else if mem then Some m else None.

Lemma channel_e_ok p g den mem padded mats x (dec : decomposition T) n0 data :
  gwf g -> mats_ok g mats -> dimension p = gdim g -> Z.to_nat (steps p) = gK g -> spw p = gspw g ->
  let N := gK g * gspw g in
  length dec = N + 1 ->
  add_padding data padded = Ok (apm g x 0) ->
  exists r b n', channel_e p den mem padded mats dec n0 data = Ok (r, n', b) /\
    mix (cla (gdim g) (gspw g) N den mem n0) 0 (dec_pure g null_denoiser x) dec = (r, b) /\
    (b = false -> n' = n0 + N).
Proof.
  intros G HM Ed Es Ew N HL Hpad. unfold channel_e. rewrite Hpad. cbn [bind]. rewrite Ed, Es, Ew.
  destruct (steps_e g den mats x dec n0 (gK g) G HM (le_n _) HL) as (r & n1 & b & sig & E1 & E2 & E3).
  rewrite E2. cbn [bind]. clear E2. fold N in E1 |- *.
  assert (HN : length (flat_map (raws g x) (seq 0 (gK g))) = N) by apply all_raws_length.
  assert (HR : length r = N).
  { pose proof (mix_len (fun i m => clp (gdim g) (gspw g) den i (n0 + i) m) (flat_map (raws g x) (seq 0 (gK g))) 0 (firstn N dec)) as H.
    rewrite E1 in H. cbn [fst] in H. rewrite H, firstn_length. lia. }
  assert (HS : exists o, skipn N dec = [o]).
  { destruct (skipn N dec) as [|o post] eqn:E.
    - apply (f_equal (@length _)) in E. rewrite skipn_length in E. simpl in E; lia.
    - exists o. pose proof (f_equal (@length _) E) as EL. rewrite skipn_length in EL. simpl in EL.
      destruct post; [reflexivity|simpl in EL; lia]. }
  destruct HS as (o & Eo). rewrite Eo.
  assert (EM : mix (cla (gdim g) (gspw g) N den mem n0) 0 (dec_pure g null_denoiser x) dec =
    if b then (r ++ [o], true) else if mem then (r ++ [apm g x (gK g)], false) else (r ++ [o], true)).
  { rewrite <- (firstn_skipn N dec), Eo. unfold dec_pure.
    change (flat_map (fun s => map (fun m => den_apply (gdim g) null_denoiser m s) (detm g x s)) (seq 0 (gK g)))
      with (flat_map (raws g x) (seq 0 (gK g))).
    rewrite mix_app by (rewrite HN, firstn_length; lia).
    rewrite (mix_ext _ (fun i m => clp (gdim g) (gspw g) den i (n0 + i) m)).
    2:{ intros j m Hj. rewrite HN in Hj. unfold cla. replace (0 + j <? N) with true by lia. reflexivity. }
    rewrite E1. destruct b; [reflexivity|]. rewrite HN, Nat.add_0_l. cbn [mix]. unfold cla at 1. rewrite Nat.ltb_irrefl.
    destruct mem; reflexivity. }
  rewrite EM. destruct b.
  - do 3 eexists. split; [reflexivity|]. split; [reflexivity|discriminate].
  - destruct (E3 eq_refl) as (-> & ->). destruct mem; cbn [negb].
    + rewrite wr_lt by (rewrite app_length; simpl; lia). cbn [bind].
      replace (upd (r ++ [o]) N (apm g x (gK g))) with (r ++ [apm g x (gK g)]) by (rewrite <- HR, upd_app; reflexivity).
      do 3 eexists. split; [reflexivity|]. split; [reflexivity|]. auto.
    + do 3 eexists. split; [reflexivity|]. split; [reflexivity|discriminate].
Qed.

(** ** all channels *)
Section Channels.
Variables (N : nat) (F : nat -> decomposition T -> nat -> mat T -> res (decomposition T * nat * bool)).
Variables (raw : mat T -> decomposition T) (cl : nat -> nat -> mat T -> option (mat T)).
Variable (data : list (mat T)) (start : nat).
Hypothesis Hraw : forall d, length (raw d) = N + 1.
Hypothesis HF : forall c d sub, In d data -> length sub = N + 1 ->
  exists r b n', F c sub (c * N) d = Ok (r, n', b) /\ mix (cl c) 0 (raw d) sub = (r, b) /\ (b = false -> n' = c * N + N).

Definition body_e (ch : nat) (st : ndecomposition T * nat * bool) : res (ndecomposition T * nat * bool) :=
  let '(dec, n, raised) := st in
  if raised then Ok st
  else
    let* d := rd data (ch - start) in
    let* sub := rd dec ch in
    let* w := F (ch - start) sub n d in
    let '(sub', n', raised') := w in
    let* dec' := wr dec ch sub' in
    Ok (dec', n', raised').

Lemma body_raised count : forall st0 dec n, loop count st0 body_e (dec, n, true) = Ok (dec, n, true).
Proof. induction count; intros; [reflexivity|]. cbn [loop body_e bind]. apply IHcount. Qed.

Lemma channels_e ds : forall dpre pre olds post e, data = dpre ++ ds -> length pre = start + length dpre ->
  length olds = length ds -> (forall ch, In ch olds -> length ch = N + 1) -> e <= length ds * (N + 1) ->
  (forall c i d m, c * (N + 1) + i < e -> i < N + 1 -> nth_error ds c = Some d -> nth_error (raw d) i = Some m ->
     cl (length dpre + c) i m <> None) ->
  (forall c i d m, c * (N + 1) + i = e -> i < N + 1 -> nth_error ds c = Some d -> nth_error (raw d) i = Some m ->
     cl (length dpre + c) i m = None) ->
  exists news n', loop (length ds) (length pre) body_e (pre ++ olds ++ post, length dpre * N, false) =
      Ok (pre ++ news ++ post, n', e <? length ds * (N + 1)) /\ length news = length ds /\
    forall c d, nth_error ds c = Some d -> exists new old,
      nth_error news c = Some new /\ nth_error olds c = Some old /\ length new = N + 1 /\
      (forall i, i < N + 1 -> nth_error new i =
        if c * (N + 1) + i <? e then match nth_error (raw d) i with Some m => cl (length dpre + c) i m | None => None end
        else nth_error old i).
Proof.
  induction ds as [|d ds IH]; intros dpre pre olds post e Ed HLp HLo Hlen He H1 H2.
  - destruct olds; [|discriminate]. exists [], (length dpre * N). assert (e = 0) by (simpl in He; lia). subst e. simpl.
    split; [reflexivity|]. split; [reflexivity|]. intros [|c] d H; discriminate.
  - destruct olds as [|o olds]; [discriminate|]. simpl in HLo.
    assert (Hin : In d data) by (rewrite Ed; apply in_or_app; right; left; auto).
    assert (Hlo : length o = N + 1) by (apply Hlen; left; auto).
    destruct (HF (length dpre) d o Hin Hlo) as (r & b & n' & Er & Em & Hn).
    assert (HLr : length r = N + 1).
    { pose proof (mix_len (cl (length dpre)) (raw d) 0 o) as H. rewrite Em in H. cbn [fst] in H. lia. }
    destruct (mix_spec (cl (length dpre)) (raw d) 0 o (Nat.min e (N + 1))) as (r' & Em' & Hr).
    { rewrite Hraw. auto. }
    { rewrite Hraw. lia. }
    { intros j m Hj Hm. rewrite Nat.add_0_l. replace (length dpre) with (length dpre + 0) by lia. apply (H1 0 j d m); auto; simpl; lia. }
    { intros m Hm. pose proof (nth_error_Some_lt _ _ _ Hm) as Hlt. rewrite Hraw in Hlt. rewrite Nat.add_0_l.
      replace (length dpre) with (length dpre + 0) by lia. apply (H2 0 _ d m); auto; simpl; lia. }
    rewrite Em in Em'. rewrite Hraw in Em'. inversion Em'; subst r' b. clear Em'.
    cbn [length loop]. unfold body_e at 1.
    replace (length pre - start) with (length dpre) by lia.
    erewrite (rd_some data) by (rewrite Ed, nth_error_app2 by lia; rewrite Nat.sub_diag; reflexivity).
    cbn [bind].
    erewrite rd_some by (rewrite nth_error_app2 by lia; rewrite Nat.sub_diag; reflexivity).
    cbn [bind]. rewrite Er. cbn [bind].
    rewrite wr_lt by (rewrite app_length; simpl; lia). cbn [app]. rewrite upd_app. cbn [bind].
    destruct (Nat.ltb_spec (Nat.min e (N + 1)) (N + 1)) as [Hlt|Hge].
    + (* raised in this channel *)
      replace (Nat.min e (N + 1)) with e in * by lia.
      rewrite body_raised. exists (r :: olds), n'.
      replace (e <? S (length ds) * (N + 1)) with true by (symmetry; apply Nat.ltb_lt; simpl; lia).
      split; [reflexivity|]. split; [simpl; lia|].
      intros [|c] d' Hd'.
      * inversion Hd'; subst d'. exists r, o. split; [reflexivity|]. split; [reflexivity|]. split; [auto|].
        intros i Hi. rewrite Hr, Nat.add_0_r. reflexivity.
      * cbn [nth_error] in Hd' |- *. destruct (nth_error olds c) as [old|] eqn:Eo.
        2:{ apply nth_error_None in Eo. apply nth_error_Some_lt in Hd'. lia. }
        exists old, old. split; [reflexivity|]. split; [reflexivity|].
        split; [apply Hlen; right; eapply nth_error_In; eauto|].
        intros i Hi. replace (S c * (N + 1) + i <? e) with false by (symmetry; apply Nat.ltb_ge; simpl; lia). reflexivity.
    + assert (HeN : N + 1 <= e) by lia. replace (Nat.min e (N + 1)) with (N + 1) in * by lia.
      rewrite (Hn eq_refl).
      replace (S (length pre)) with (length (pre ++ [r])) by (rewrite app_length; simpl; lia).
      destruct (IH (dpre ++ [d]) (pre ++ [r]) olds post (e - (N + 1))) as (news & n2 & El & HLn & Hc).
      { rewrite <- app_assoc. exact Ed. }
      { rewrite !app_length. simpl. lia. }
      { lia. }
      { intros; apply Hlen; right; auto. }
      { simpl in He. lia. }
      { intros c i d' m Hci Hi Hd' Hm. rewrite app_length. cbn [length].
        replace (length dpre + 1 + c) with (length dpre + S c) by lia.
        apply (H1 (S c) i d' m); auto. simpl. lia. }
      { intros c i d' m Hci Hi Hd' Hm. rewrite app_length. cbn [length].
        replace (length dpre + 1 + c) with (length dpre + S c) by lia.
        apply (H2 (S c) i d' m); auto. simpl. lia. }
      replace (length (dpre ++ [d]) * N) with (length dpre * N + N) in El by (rewrite app_length; cbn [length]; lia).
      rewrite <- !app_assoc in El. exists (r :: news), n2.
      replace (e <? S (length ds) * (N + 1)) with (e - (N + 1) <? length ds * (N + 1)) by (simpl; lia).
      split; [exact El|]. split; [simpl; lia|].
      intros [|c] d' Hd'.
      * inversion Hd'; subst d'. exists r, o. split; [reflexivity|]. split; [reflexivity|]. split; [auto|].
        intros i Hi. rewrite Hr, Nat.add_0_r. replace (i <? N + 1) with true by lia.
        replace (0 * (N + 1) + i <? e) with true by (symmetry; apply Nat.ltb_lt; simpl; lia). reflexivity.
      * cbn [nth_error] in Hd' |- *. destruct (Hc c d' Hd') as (new & old & Hn' & Ho & HL' & Hi).
        exists new, old. split; [auto|]. split; [auto|]. split; [auto|].
        intros i Hi'. rewrite Hi by auto. rewrite app_length. cbn [length].
        replace (length dpre + 1 + c) with (length dpre + S c) by lia.
        replace (S c * (N + 1) + i <? e) with (c * (N + 1) + i <? e - (N + 1)) by (simpl; lia). reflexivity.
Qed.

End Channels.

End T.
