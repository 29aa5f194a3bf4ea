(** * P_Lin: the model's filters over exact reals as plain matrices. *)
Require Import List Bool Arith ZArith Lia Reals Lra.
Require Import ZifyBool.
Require Import Verif.M_Base Verif.M_Wavelet Verif.M_Real Verif.P_Base Verif.P_Wavelet Verif.P_Buffer Verif.P_Sum.
Import ListNotations.
Open Scope R_scope.

(** ** model sums *)
Lemma sumT_rsum n (g : nat -> R) : sumT n g = rsum n g.
Proof.
  unfold sumT. change (@a0 R exactR) with 0. rewrite fold_left_lsum.
  rewrite lsum_seq0. lra.
Qed.
Lemma rowdot_lsum (row : list (nat * R)) x : rowdot row x = lsum row (fun e => snd e * x (fst e)).
Proof. unfold rowdot. change (@a0 R exactR) with 0. rewrite (fold_left_lsum row (fun e => snd e * x (fst e))). lra. Qed.

(** ** matrices *)
Definition mv (n : nat) (M : nat -> nat -> R) (x : nat -> R) (i : nat) : R := rsum n (fun j => M i j * x j).
Definition mvT (n : nat) (M : nat -> nat -> R) (y : nat -> R) (j : nat) : R := rsum n (fun i => M i j * y i).

Lemma mv_ext n M x y i : (forall j, (j < n)%nat -> x j = y j) -> mv n M x i = mv n M y i.
Proof. intros H. apply rsum_ext. intros. rewrite H; auto. Qed.
Lemma mvT_ext n M x y i : (forall j, (j < n)%nat -> x j = y j) -> mvT n M x i = mvT n M y i.
Proof. intros H. apply rsum_ext. intros. rewrite H; auto. Qed.
Lemma mv_lin n M a b x y i : mv n M (fun j => a * x j + b * y j) i = a * mv n M x i + b * mv n M y i.
Proof. unfold mv. rewrite <- !rsum_scal, <- rsum_plus. apply rsum_ext. intros; ring. Qed.
Lemma mvT_lin n M a b x y i : mvT n M (fun j => a * x j + b * y j) i = a * mvT n M x i + b * mvT n M y i.
Proof. unfold mvT. rewrite <- !rsum_scal, <- rsum_plus. apply rsum_ext. intros; ring. Qed.

Lemma mv_adjoint n M x y : rsum n (fun i => mv n M x i * y i) = rsum n (fun j => x j * mvT n M y j).
Proof.
  unfold mv, mvT.
  rewrite (rsum_ext n (fun i => _ * y i) (fun i => rsum n (fun j => M i j * x j * y i))) by
    (intros; rewrite <- rsum_scal_r; reflexivity).
  rewrite rsum_swap. apply rsum_ext. intros j Hj. rewrite <- rsum_scal. apply rsum_ext. intros; ring.
Qed.

(** entry c of the periodic row i holding the taps f *)
Definition ent (f : list R) (n i c : nat) : R :=
  rsum (length f) (fun k => if Nat.eqb ((2 * i + k) mod n) c then nth k f 0 else 0).
(** the analysis matrix *)
Definition AM (lo hi : list R) (n r c : nat) : R :=
  if Nat.ltb r (n / 2) then ent lo n r c else ent hi n (r - n / 2) c.
Definition idm (r c : nat) : R := if Nat.eqb r c then 1 else 0.

Lemma ent_sum f n i x : (0 < n)%nat ->
  rsum n (fun c => ent f n i c * x c) = rsum (length f) (fun k => nth k f 0 * x ((2 * i + k) mod n)%nat).
Proof.
  intros Hn. unfold ent.
  rewrite (rsum_ext n _ (fun c => rsum (length f) (fun k => (if Nat.eqb ((2 * i + k) mod n) c then nth k f 0 else 0) * x c)))
    by (intros; rewrite <- rsum_scal_r; reflexivity).
  rewrite rsum_swap. apply rsum_ext. intros k Hk.
  assert (Hc : ((2 * i + k) mod n < n)%nat) by (apply Nat.mod_upper_bound; lia).
  rewrite (rsum_single n _ ((2 * i + k) mod n)%nat); auto.
  - rewrite Nat.eqb_refl. reflexivity.
  - intros c _ Hne; destruct (Nat.eqb_spec ((2 * i + k) mod n) c); [congruence|ring].
Qed.

Lemma afilt_ent f n x i : (0 < n)%nat -> afilt f n x i = rsum n (fun c => ent f n i c * x c).
Proof.
  intros Hn. rewrite ent_sum by auto. unfold afilt. rewrite sumT_rsum. apply rsum_ext.
  intros. simpl. ring.
Qed.

(** the positions of a row are a rotation of the taps *)
Lemma drow_lsum n (f : list R) i (F : nat * R -> R) : (0 < length f)%nat ->
  lsum (drow n f i) F = rsum (length f) (fun k => F (((2 * i + k) mod n)%nat, nth k f 0)).
Proof.
  intros HL. unfold drow. rewrite lsum_map, lsum_seq0. unfold dpos.
  apply (rsum_rot (length f) (fun k => F (((2 * i + k) mod n)%nat, nth k f 0))). auto.
Qed.

Lemma drow_ent n (f : list R) i x : (0 < n)%nat -> (0 < length f)%nat ->
  rowdot (drow n f i) x = rsum n (fun c => ent f n i c * x c).
Proof.
  intros Hn HL. rewrite rowdot_lsum, drow_lsum by auto. rewrite ent_sum by auto. reflexivity.
Qed.

Lemma dmat_row n lo hi r : (r < n)%nat -> Nat.even n = true ->
  srow_at (dmat_pure n lo hi) r =
  if Nat.ltb r (n / 2) then drow n lo r else drow n hi (r - n / 2).
Proof.
  intros Hr He. unfold srow_at, dmat_pure; cbn [srow].
  assert (En : (n = 2 * (n / 2))%nat).
  { apply Nat.even_spec in He as [q ->]. rewrite Nat.mul_comm, Nat.div_mul; lia. }
  destruct (Nat.ltb_spec r (n / 2)).
  - rewrite app_nth1 by (rewrite map_length, seq_length; auto). apply nth_map_seq; auto.
  - rewrite app_nth2 by (rewrite map_length, seq_length; auto). rewrite map_length, seq_length.
    rewrite app_nth1 by (rewrite map_length, seq_length; lia). apply nth_map_seq; lia.
Qed.

Lemma dmat_mv n lo hi r x : (r < n)%nat -> Nat.even n = true -> (0 < length lo)%nat -> (0 < length hi)%nat ->
  rowdot (srow_at (dmat_pure n lo hi) r) x = mv n (AM lo hi n) x r.
Proof.
  intros Hr He H1 H2. rewrite dmat_row by auto. unfold mv, AM.
  destruct (Nat.ltb_spec r (n / 2)); apply drow_ent; lia.
Qed.

Lemma stranspose_row (m : smat R) c x : (c < scols m)%nat -> length (srow m) = srows m ->
  rowdot (srow_at (stranspose m) c) x =
  rsum (srows m) (fun i => lsum (srow_at m i) (fun e => if Nat.eqb (fst e) c then snd e * x i else 0)).
Proof.
  intros Hc HL. unfold srow_at at 1. unfold stranspose; cbn [srow].
  rewrite nth_map_seq by auto. rewrite rowdot_lsum, lsum_flat_map.
  rewrite (lsum_combine_seq _ [] (fun ir => _)). rewrite HL. apply rsum_ext. intros i Hi. cbn [fst snd].
  rewrite lsum_map, lsum_filter. apply lsum_ext. intros e _. reflexivity.
Qed.

Lemma dmat_mvT n lo hi c y : (c < n)%nat -> Nat.even n = true -> (0 < length lo)%nat -> (0 < length hi)%nat ->
  rowdot (srow_at (stranspose (dmat_pure n lo hi)) c) y = mvT n (AM lo hi n) y c.
Proof.
  intros Hc He H1 H2. rewrite stranspose_row by (auto; apply dmat_pure_swf; lia).
  change (srows (dmat_pure n lo hi)) with n. unfold mvT. apply rsum_ext. intros i Hi.
  rewrite dmat_row by auto. unfold AM, ent.
  destruct (Nat.ltb_spec i (n / 2)); rewrite drow_lsum by auto; cbn [fst snd];
    rewrite <- rsum_scal_r; apply rsum_ext; intros k Hk;
    match goal with |- context[if ?b then _ else _] => destruct b end; ring.
Qed.

(** ** synthesis, explicitly *)
Lemma mod_shift_eq N q b i : (0 < N)%nat -> (q < N)%nat -> (b < N)%nat -> (i < N)%nat ->
  ((i + b) mod N = q <-> i = (q + N - b) mod N)%nat.
Proof.
  intros HN Hq Hb Hi. split; intros H.
  - destruct (Nat.lt_ge_cases (i + b) N).
    + rewrite Nat.mod_small in H by auto. subst q.
      replace (i + b + N - b)%nat with (i + 1 * N)%nat by lia. rewrite Nat.mod_add by lia.
      symmetry; apply Nat.mod_small; auto.
    + replace (i + b)%nat with (i + b - N + 1 * N)%nat in H by lia. rewrite Nat.mod_add in H by lia.
      rewrite Nat.mod_small in H by lia. rewrite Nat.mod_small by lia. lia.
  - subst i. destruct (Nat.lt_ge_cases (q + N - b) N).
    + rewrite (Nat.mod_small (q + N - b)) by auto. replace (q + N - b + b)%nat with (q + 1 * N)%nat by lia.
      rewrite Nat.mod_add by lia. apply Nat.mod_small; auto.
    + replace (q + N - b)%nat with (q - b + 1 * N)%nat by lia. rewrite Nat.mod_add by lia.
      rewrite (Nat.mod_small (q - b)) by lia. replace (q - b + b)%nat with q by lia. apply Nat.mod_small; auto.
Qed.

Lemma mod2N_eq N i b p q p' : (0 < N)%nat -> (p < 2)%nat -> (p' < 2)%nat ->
  ((2 * i + (2 * b + p')) mod (2 * N) = 2 * q + p <-> p' = p /\ (i + b) mod N = q)%nat.
Proof.
  intros HN Hp Hp'.
  assert (E : ((2 * i + (2 * b + p')) mod (2 * N) = 2 * ((i + b) mod N) + p')%nat).
  { symmetry. apply (Nat.mod_unique _ _ ((i + b) / N)).
    - pose proof (Nat.mod_upper_bound (i + b) N ltac:(lia)). lia.
    - pose proof (Nat.div_mod (i + b) N ltac:(lia)). lia. }
  rewrite E. lia.
Qed.

Lemma ent_sumT f t N q p y : length f = (2 * t)%nat -> (t <= N)%nat -> (q < N)%nat -> (p < 2)%nat ->
  rsum N (fun i => ent f (2 * N) i (2 * q + p) * y i) =
  rsum t (fun b => nth (2 * b + p) f 0 * y ((q + N - b) mod N)%nat).
Proof.
  intros HL Ht Hq Hp. unfold ent. rewrite HL.
  rewrite (rsum_ext N _ (fun i => rsum (2 * t) (fun k =>
     (if Nat.eqb ((2 * i + k) mod (2 * N)) (2 * q + p) then nth k f 0 else 0) * y i)))
    by (intros; rewrite <- rsum_scal_r; reflexivity).
  rewrite rsum_swap, rsum_pairs. apply rsum_ext. intros b Hb.
  assert (HN : (0 < N)%nat) by lia.
  assert (G : forall p', (p' < 2)%nat -> rsum N (fun i =>
     (if Nat.eqb ((2 * i + (2 * b + p')) mod (2 * N)) (2 * q + p) then nth (2 * b + p') f 0 else 0) * y i)
     = if Nat.eqb p' p then nth (2 * b + p) f 0 * y ((q + N - b) mod N)%nat else 0).
  { intros p' Hp'. destruct (Nat.eqb_spec p' p) as [->|Hne].
    - assert (Hm : ((q + N - b) mod N < N)%nat) by (apply Nat.mod_upper_bound; lia).
      rewrite (rsum_single N _ ((q + N - b) mod N)%nat); auto.
      + destruct (Nat.eqb_spec ((2 * ((q + N - b) mod N) + (2 * b + p)) mod (2 * N)) (2 * q + p)) as [|Hn]; auto.
        exfalso. apply Hn. apply mod2N_eq; auto. split; auto. apply mod_shift_eq; auto; lia.
      + intros i Hi Hne. destruct (Nat.eqb_spec ((2 * i + (2 * b + p)) mod (2 * N)) (2 * q + p)) as [He|]; [|ring].
        exfalso. apply Hne. apply mod2N_eq in He as [_ He]; auto. apply mod_shift_eq in He; auto; lia.
    - apply rsum_zero. intros i Hi.
      destruct (Nat.eqb_spec ((2 * i + (2 * b + p')) mod (2 * N)) (2 * q + p)) as [He|]; [|ring].
      exfalso. apply mod2N_eq in He as [He _]; auto. }
  pose proof (G 0%nat ltac:(lia)) as G0. pose proof (G 1%nat ltac:(lia)) as G1.
  rewrite Nat.add_0_r in G0. rewrite G0, G1.
  destruct p as [|[|p]]; try lia; cbn [Nat.eqb]; lra.
Qed.

Lemma AM_T lo hi t N q p y : length lo = (2 * t)%nat -> length hi = (2 * t)%nat ->
  (t <= N)%nat -> (q < N)%nat -> (p < 2)%nat ->
  mvT (2 * N) (AM lo hi (2 * N)) y (2 * q + p) =
  rsum t (fun b => nth (2 * b + p) lo 0 * y ((q + N - b) mod N)%nat) +
  rsum t (fun b => nth (2 * b + p) hi 0 * y (N + (q + N - b) mod N)%nat).
Proof.
  intros H1 H2 Ht Hq Hp. unfold mvT.
  assert (E2 : (2 * N / 2 = N)%nat) by (rewrite Nat.mul_comm, Nat.div_mul; lia).
  replace (2 * N)%nat with (N + N)%nat at 1 by lia. rewrite rsum_split.
  rewrite <- (ent_sumT lo t N q p) by auto.
  rewrite <- (ent_sumT hi t N q p (fun i => y (N + i)%nat)) by auto.
  f_equal; apply rsum_ext; intros i Hi; unfold AM; rewrite E2.
  - destruct (Nat.ltb_spec i N); [reflexivity|lia].
  - destruct (Nat.ltb_spec (N + i) N); [lia|]. do 2 f_equal. lia.
Qed.

(** the two-row synthesis is the transposed analysis matrix *)
Lemma sfilt_mvT lo hi t N low high c :
  length lo = (2 * t)%nat -> length hi = (2 * t)%nat -> (0 < t <= N)%nat -> (c < 2 * N)%nat ->
  sfilt (rev lo) (rev hi) N low high c =
  mvT (2 * N) (AM lo hi (2 * N)) (fun r => if Nat.ltb r N then low r else high (r - N)%nat) c.
Proof.
  intros H1 H2 Ht Hc.
  set (q := (c / 2)%nat). set (p := (c mod 2)%nat).
  assert (Ec : c = (2 * q + p)%nat) by (unfold q, p; apply Nat.div_mod; lia).
  assert (Hp : (p < 2)%nat) by (apply Nat.mod_upper_bound; lia).
  assert (Hq : (q < N)%nat) by lia.
  rewrite Ec at 2. rewrite (AM_T lo hi t) by (auto; lia).
  unfold sfilt. rewrite rev_length, H1. fold q.
  replace ((2 * t - 2) / 2)%nat with (t - 1)%nat by
    (replace (2 * t - 2)%nat with ((t - 1) * 2)%nat by lia; symmetry; apply Nat.div_mul; lia).
  replace (2 * t / 2)%nat with t by (rewrite Nat.mul_comm, Nat.div_mul; lia).
  change (@a0 R exactR) with 0. cbn [aadd amul exactR].
  rewrite (fold_left_ext_in _ (fun acc jj => acc +
     (nth ((if Nat.even c then 1 else 0) + 2 * jj) (rev lo) 0 * low ((N - (t - 1) + q + jj) mod N)%nat +
      nth ((if Nat.even c then 1 else 0) + 2 * jj) (rev hi) 0 * high ((N - (t - 1) + q + jj) mod N)%nat)))
    by (intros; ring).
  rewrite fold_left_lsum, lsum_seq0, Rplus_0_l.
  rewrite <- rsum_plus. rewrite (rsum_rev t (fun b => nth (2 * b + p) lo 0 * _ + _)).
  apply rsum_ext. intros jj Hjj.
  assert (Hev : Nat.even c = Nat.eqb p 0).
  { rewrite Ec. rewrite Nat.even_add, Nat.even_mul. simpl.
    destruct p as [|[|p]]; try lia; reflexivity. }
  rewrite Hev.
  replace (N - (t - 1) + q + jj)%nat with (q + N - (t - 1 - jj))%nat by lia.
  assert (Hm : ((q + N - (t - 1 - jj)) mod N < N)%nat) by (apply Nat.mod_upper_bound; lia).
  destruct (Nat.ltb_spec ((q + N - (t - 1 - jj)) mod N) N); [|lia].
  destruct (Nat.ltb_spec (N + (q + N - (t - 1 - jj)) mod N) N); [lia|].
  replace (N + (q + N - (t - 1 - jj)) mod N - N)%nat with ((q + N - (t - 1 - jj)) mod N)%nat by lia.
  rewrite !rev_nth by (destruct (Nat.eqb_spec p 0); lia). rewrite H1, H2.
  replace (2 * t - S ((if Nat.eqb p 0 then 1 else 0) + 2 * jj))%nat with (2 * (t - 1 - jj) + p)%nat
    by (destruct (Nat.eqb_spec p 0); lia).
  reflexivity.
Qed.
