(** * P_Buffer: Decompose and Compose as pure functions (any arithmetic). *)
Require Import List Bool Arith ZArith QArith Lia.
Require Import ZifyBool.
Require Import Verif.M_Base Verif.M_Params Verif.M_Padding Verif.M_Wavelet Verif.M_Buffer.
Require Import Verif.S_Params Verif.P_Base Verif.P_Params Verif.P_Padding Verif.P_Wavelet.
Import ListNotations.
Open Scope nat_scope.

(** ** Geometry: dimension, wavelet, steps, padded rows and columns *)
Record geom := Geom { gdim : nat; gt : Z; gK : nat; gh : nat; gw : nat }.

Definition hs (g : geom) (s : nat) := gh g / 2 ^ s.
Definition ws (g : geom) (s : nat) := if gdim g =? 1 then 1 else gw g / 2 ^ s.
Definition gspw (g : geom) := if gdim g =? 1 then 1 else 3.

Definition side_ok (t : Z) (K n : nat) : Prop :=
  exists q, n = 2 ^ K * q /\ 2 * Z.to_nat t - 1 <= q.

Definition gwf (g : geom) : Prop :=
  (gdim g = 1 /\ gw g = 1 \/ gdim g = 2) /\
  (0 < gK g -> (1 <= gt g <= 10)%Z /\ side_ok (gt g) (gK g) (gh g) /\
               (gdim g = 2 -> side_ok (gt g) (gK g) (gw g))).

Lemma side_step t K n s : (1 <= t)%Z -> s < K -> side_ok t K n ->
  n / 2 ^ s = 2 * (n / 2 ^ S s) /\ 2 * Z.to_nat t <= n / 2 ^ s.
Proof.
  intros Ht Hs (q & -> & Hq).
  assert (E : forall s, s <= K -> 2 ^ K * q / 2 ^ s = 2 ^ (K - s) * q).
  { intros s0 H0. replace (2 ^ K * q) with (2 ^ (K - s0) * q * 2 ^ s0).
    - apply Nat.div_mul. apply Nat.pow_nonzero; lia.
    - replace K with ((K - s0) + s0) at 2 by lia. rewrite Nat.pow_add_r. lia. }
  rewrite !E by lia.
  replace (K - s) with (S (K - S s)) by lia. rewrite Nat.pow_succ_r'.
  split; [lia|].
  assert (1 <= 2 ^ (K - S s)) by (apply Nat.neq_0_lt_0, Nat.pow_nonzero; lia). nia.
Qed.

Lemma hs_step g s : gwf g -> s < gK g ->
  hs g s = 2 * hs g (S s) /\ 2 * Z.to_nat (gt g) <= hs g s.
Proof.
  intros (_ & H) Hs. destruct H as (Ht & H & _); [lia|]. unfold hs.
  apply side_step with (K := gK g); auto; lia.
Qed.
Lemma ws_step g s : gwf g -> gdim g = 2 -> s < gK g ->
  ws g s = 2 * ws g (S s) /\ 2 * Z.to_nat (gt g) <= ws g s.
Proof.
  intros (_ & H) Hd Hs. destruct H as (Ht & _ & H); [lia|]. unfold ws. rewrite Hd. simpl.
  apply side_step with (K := gK g); auto; lia.
Qed.
Lemma ws_1 g s : gdim g = 1 -> ws g s = 1.
Proof. intros E. unfold ws. rewrite E. reflexivity. Qed.
Lemma gt_range g s : gwf g -> s < gK g -> (1 <= gt g <= 10)%Z.
Proof. intros (_ & H) Hs. apply H; lia. Qed.
Lemma gdim_cases g : gwf g -> gdim g = 1 \/ gdim g = 2.
Proof. intros ([[]|]&_); auto. Qed.

Lemma hs_0 g : hs g 0 = gh g. Proof. unfold hs. rewrite Nat.pow_0_r, Nat.div_1_r. reflexivity. Qed.
Lemma ws_0 g : gwf g -> ws g 0 = gw g.
Proof.
  intros ([[E1 E2]|E]&_); unfold ws; rewrite E1 || rewrite E; simpl; auto.
  rewrite Nat.div_1_r; reflexivity.
Qed.

Section B.
Context {T : Type} {A : Arith T}.

(** ** Pure one-level analysis and synthesis *)
Definition dm (t : Z) (n : nat) : smat T := dmat_pure n (lo_r t) (hi_r t).
Definition dmT (t : Z) (n : nat) : smat T := stranspose (dm t n).

(** approximation and details of an h x w image x *)
Definition ana_a (dim : nat) (t : Z) (h w : nat) (x : nat -> nat -> T) : nat -> nat -> T :=
  if dim =? 1 then fun i _ => afilt (lo_r t) h (fun i' => x i' 0) i
  else fun i j => sep (dm t w) (dm t h) x i j.
Definition ana_d (dim : nat) (t : Z) (h w : nat) (x : nat -> nat -> T) : list (nat -> nat -> T) :=
  if dim =? 1 then [fun i _ => afilt (hi_r t) h (fun i' => x i' 0) i]
  else [fun i j => sep (dm t w) (dm t h) x (h / 2 + i) j;
        fun i j => sep (dm t w) (dm t h) x i (w / 2 + j);
        fun i j => sep (dm t w) (dm t h) x (h / 2 + i) (w / 2 + j)].

(** h w : size of the subbands *)
Definition synth (dim : nat) (t : Z) (h w : nat) (low : nat -> nat -> T)
  (ds : nat -> nat -> nat -> T) : nat -> nat -> T :=
  if dim =? 1 then
    fun i _ => sfilt (rev (lo_r t)) (rev (hi_r t)) h (fun i => low i 0) (fun i => ds 0 i 0) i
  else sep (dmT t (w * 2)) (dmT t (h * 2)) (joined h w low (ds 0) (ds 1) (ds 2)).

(** approximation after s levels *)
Fixpoint ap (g : geom) (x : nat -> nat -> T) (s : nat) : nat -> nat -> T :=
  match s with
  | O => x
  | S s' => ana_a (gdim g) (gt g) (hs g s') (ws g s') (ap g x s')
  end.

Definition apm (g : geom) x s : mat T := mk (hs g s) (ws g s) (ap g x s).
Definition detf (g : geom) x s : list (nat -> nat -> T) :=
  ana_d (gdim g) (gt g) (hs g s) (ws g s) (ap g x s).
Definition detm (g : geom) x s : list (mat T) :=
  map (mk (hs g (S s)) (ws g (S s))) (detf g x s).

Definition den_apply (dim : nat) (den : denoiser T) (m : mat T) (s : nat) : mat T :=
  if dim =? 1 then mcolvec (den1 den (elts m) s) else den2 den m s.

(** a denoiser that keeps the shape of its argument *)
Definition den_shape (den : denoiser T) : Prop :=
  (forall l s, length (den1 den l s) = length l) /\
  (forall m s, mwf m -> mwf (den2 den m s) /\ rows (den2 den m s) = rows m /\ cols (den2 den m s) = cols m).

Lemma ana_d_length dim t h w x : length (ana_d dim t h w x) = if dim =? 1 then 1 else 3.
Proof. unfold ana_d; destruct (dim =? 1); reflexivity. Qed.
Lemma detm_length g x s : length (detm g x s) = gspw g.
Proof. unfold detm, detf. rewrite map_length, ana_d_length. reflexivity. Qed.

(** matrices handed to step s *)
Definition mats_ok (g : geom) (mats : nat -> res (list (smat T))) : Prop :=
  forall s, s < gK g ->
    mats s = if gdim g =? 1 then Ok [filter_mat (lo_r (gt g)) (hi_r (gt g))]
             else Ok [dm (gt g) (ws g s); dm (gt g) (hs g s)].
Definition tmats_ok (g : geom) (mats : nat -> res (list (smat T))) : Prop :=
  forall s, s < gK g ->
    mats s = if gdim g =? 1 then Ok [filter_mat (rev (lo_r (gt g))) (rev (hi_r (gt g)))]
             else Ok [dmT (gt g) (ws g s); dmT (gt g) (hs g s)].

Lemma dm_swf t n : 0 < n -> swf (dm t n).
Proof. apply dmat_pure_swf. Qed.
Lemma dmT_swf t n : 0 < n -> swf (dmT t n).
Proof. intros; apply stranspose_swf, dm_swf; auto. Qed.

Lemma map_col0 (n : nat) (x : nat -> nat -> T) :
  map (fun i => x i 0) (seq 0 n) = elts (mk n 1 x).
Proof.
  unfold mk; simpl. rewrite Nat.mul_1_r. apply map_ext. intros k.
  rewrite Nat.div_1_r, Nat.mod_1_r. reflexivity.
Qed.

Lemma one_side_step_ok g den mats x s wm :
  gwf g -> s < gK g -> mats_ok g mats -> mats s = Ok wm ->
  (gdim g = 1 -> forall l, length (den1 den l s) = length l) ->
  one_side_step (gdim g) den wm (apm g x s) s =
  Ok (map (fun m => den_apply (gdim g) den m s) (detm g x s), apm g x (S s)).
Proof.
  intros G Hs HM Hwm Hden. specialize (HM s Hs). rewrite Hwm in HM.
  pose proof (hs_step g s G Hs) as (Hh & Hh2). pose proof (gt_range g s G Hs) as Ht.
  unfold one_side_step, apm, detm, detf, den_apply.
  assert (Ea : ap g x (S s) = ana_a (gdim g) (gt g) (hs g s) (ws g s) (ap g x s)) by reflexivity.
  rewrite Ea. clear Ea. set (y := ap g x s).
  destruct (gdim_cases g G) as [E|E]; rewrite E in *; cbn [Nat.eqb] in *.
  - inversion HM; subst wm; clear HM.
    unfold one_side_step_1d. rewrite !ws_1 by auto.
    rewrite mcol_mk by lia. cbn [bind].
    unfold rd; simpl nth_error. cbn [bind].
    pose proof (lo_r_length (gt g) Ht) as HL. pose proof (hi_r_length (gt g)) as HH.
    rewrite dwt_filter by lia. cbn [bind fst snd].
    rewrite Hden by auto. rewrite map_length, seq_length, Nat.eqb_refl. cbn [check bind].
    f_equal. f_equal.
    + unfold ana_d. cbn [Nat.eqb map]. rewrite <- (map_col0 (hs g (S s))).
      replace (hs g s / 2) with (hs g (S s)); [reflexivity|].
      rewrite Hh. rewrite Nat.mul_comm, Nat.div_mul; lia.
    + unfold ana_a. cbn [Nat.eqb].
      replace (hs g s / 2) with (hs g (S s)); [apply mcolvec_mk|].
      rewrite Hh at 1. rewrite Nat.mul_comm, Nat.div_mul; lia.
  - pose proof (ws_step g s G E Hs) as (Hw & Hw2).
    inversion HM; subst wm; clear HM.
    unfold one_side_step_2d. unfold rd; simpl nth_error. cbn [bind].
    rewrite dwt2_mk; try reflexivity; try (apply dm_swf; lia). cbn [bind].
    unfold ana_a, ana_d. cbn [Nat.eqb map].
    replace (hs g s / 2) with (hs g (S s)) by (rewrite Hh; rewrite Nat.mul_comm, Nat.div_mul; lia).
    replace (ws g s / 2) with (ws g (S s)) by (rewrite Hw; rewrite Nat.mul_comm, Nat.div_mul; lia).
    reflexivity.
Qed.

(** ** store *)
Lemma store_ok (dec : decomposition T) pre old post l :
  dec = pre ++ old ++ post -> length old = length l ->
  store dec (length pre) l = Ok (pre ++ l ++ post).
Proof.
  revert dec pre old; induction l as [|s l IH]; intros dec pre old E HL; simpl.
  - destruct old; [|discriminate]. rewrite E. reflexivity.
  - destruct old as [|o old]; [discriminate|]. simpl in HL.
    rewrite wr_lt by (rewrite E, !app_length; simpl; lia). cbn [bind].
    rewrite E. simpl. rewrite upd_app.
    replace (S (length pre)) with (length (pre ++ [s])) by (rewrite app_length; simpl; lia).
    rewrite (IH _ (pre ++ [s]) old) by (try lia; rewrite <- app_assoc; reflexivity).
    rewrite <- app_assoc. reflexivity.
Qed.

Definition dec_pure (g : geom) (den : denoiser T) (x : nat -> nat -> T) : decomposition T :=
  flat_map (fun s => map (fun m => den_apply (gdim g) den m s) (detm g x s)) (seq 0 (gK g))
  ++ [apm g x (gK g)].

Lemma flat_map_seq_S {B} (f : nat -> list B) n : flat_map f (seq 0 (S n)) = flat_map f (seq 0 n) ++ f n.
Proof. rewrite seq_S, flat_map_app. simpl. rewrite app_nil_r. reflexivity. Qed.
Lemma flat_map_seq_length {B} (f : nat -> list B) c n :
  (forall s, s < n -> length (f s) = c) -> length (flat_map f (seq 0 n)) = n * c.
Proof.
  induction n; intros H; [reflexivity|]. rewrite flat_map_seq_S, app_length, IHn by (intros; apply H; lia).
  rewrite H by lia. lia.
Qed.

Lemma decompose_loop g den mats x (dec : decomposition T) n :
  gwf g -> mats_ok g mats -> n <= gK g -> length dec = gK g * gspw g + 1 ->
  (gdim g = 1 -> forall s l, length (den1 den l s) = length l) ->
  loop n 0 (fun step (st : decomposition T * mat T) =>
      let* wm := mats step in
      let* r := one_side_step (gdim g) den wm (snd st) step in
      let* dec' := store (fst st) (step * gspw g) (fst r) in
      Ok (dec', snd r)) (dec, apm g x 0)
  = Ok (flat_map (fun s => map (fun m => den_apply (gdim g) den m s) (detm g x s)) (seq 0 n)
          ++ skipn (n * gspw g) dec, apm g x n).
Proof.
  intros G HM. induction n; intros Hn HL Hden.
  - reflexivity.
  - rewrite loop_snoc. rewrite IHn by (auto; lia). cbn [bind].
    rewrite Nat.add_0_l. cbn [fst snd].
    specialize (HM n ltac:(lia)) as HMn.
    destruct (mats n) as [wm| |] eqn:Ewm; try (destruct (gdim g =? 1); discriminate).
    cbn [bind].
    rewrite (one_side_step_ok g den mats) by (auto; lia). cbn [bind fst snd].
    set (f := fun s => map (fun m => den_apply (gdim g) den m s) (detm g x s)).
    assert (Hf : forall s, length (f s) = gspw g).
    { intros s. unfold f. rewrite map_length. apply detm_length. }
    assert (HF : length (flat_map f (seq 0 n)) = n * gspw g) by (apply flat_map_seq_length; auto).
    rewrite <- HF at 2.
    assert (HK : S n * gspw g <= gK g * gspw g) by (apply Nat.mul_le_mono_r; lia).
    rewrite (store_ok _ (flat_map f (seq 0 n)) (firstn (gspw g) (skipn (n * gspw g) dec))
               (skipn (S n * gspw g) dec)).
    + cbn [bind]. rewrite flat_map_seq_S, <- app_assoc. reflexivity.
    + f_equal. rewrite <- (firstn_skipn (gspw g) (skipn (n * gspw g) dec)) at 1.
      f_equal. rewrite skipn_skipn_add. f_equal. simpl; lia.
    + fold (f n). rewrite Hf. rewrite firstn_length, skipn_length. simpl in HK. lia.
Qed.

Lemma decompose_channel_ok p g den padded mats x (dec : decomposition T) data :
  gwf g -> mats_ok g mats -> dimension p = gdim g -> Z.to_nat (steps p) = gK g -> spw p = gspw g ->
  length dec = gK g * gspw g + 1 ->
  (gdim g = 1 -> forall s l, length (den1 den l s) = length l) ->
  add_padding data padded = Ok (apm g x 0) ->
  decompose_channel p den padded mats dec data = Ok (dec_pure g den x).
Proof.
  intros G HM Ed Es Ew HL Hden Hpad. unfold decompose_channel. rewrite Hpad. cbn [bind].
  rewrite Ed, Es, Ew.
  rewrite decompose_loop by (auto; lia). cbn [bind fst snd].
  set (f := fun s => map (fun m => den_apply (gdim g) den m s) (detm g x s)).
  assert (HF : length (flat_map f (seq 0 (gK g))) = gK g * gspw g).
  { apply flat_map_seq_length. intros. unfold f. rewrite map_length. apply detm_length. }
  destruct (skipn (gK g * gspw g) dec) as [|o post] eqn:E.
  - apply (f_equal (@length _)) in E. rewrite skipn_length in E. simpl in E; lia.
  - assert (post = []).
    { apply (f_equal (@length _)) in E. rewrite skipn_length in E. simpl in E.
      destruct post; auto; simpl in E; lia. }
    subst post. rewrite wr_lt by (rewrite app_length; simpl; lia).
    rewrite <- HF. rewrite upd_app. reflexivity.
Qed.

Lemma dec_pure_length g den x : length (dec_pure g den x) = gK g * gspw g + 1.
Proof.
  unfold dec_pure. rewrite app_length. simpl. f_equal.
  apply flat_map_seq_length. intros. rewrite map_length. apply detm_length.
Qed.

(** ** Composition of a channel with the right layout *)
Definition layout (g : geom) (ch : decomposition T) : Prop :=
  length ch = gK g * gspw g + 1 /\
  (forall s i m, s < gK g -> i < gspw g -> nth_error ch (s * gspw g + i) = Some m ->
     mwf m /\ rows m = hs g (S s) /\ cols m = ws g (S s)) /\
  (forall m, nth_error ch (gK g * gspw g) = Some m ->
     mwf m /\ rows m = hs g (gK g) /\ cols m = ws g (gK g)).

Definition chf (ch : decomposition T) (i : nat) : nat -> nat -> T := mel a0 (nth i ch mempty).

(** reconstruction after [it] synthesis steps, i.e. at level K - it *)
Fixpoint rc (g : geom) (ch : decomposition T) (it : nat) : nat -> nat -> T :=
  match it with
  | O => chf ch (gK g * gspw g)
  | S it' =>
      let s := gK g - S it' in
      synth (gdim g) (gt g) (hs g (S s)) (ws g (S s)) (rc g ch it') (fun i => chf ch (s * gspw g + i))
  end.

Lemma layout_detail g ch s i : layout g ch -> s < gK g -> i < gspw g ->
  rd ch (s * gspw g + i) = Ok (mk (hs g (S s)) (ws g (S s)) (chf ch (s * gspw g + i))).
Proof.
  intros (HL & H1 & _) Hs Hi.
  assert (s * gspw g + i < length ch).
  { rewrite HL. assert ((S s) * gspw g <= gK g * gspw g) by (apply Nat.mul_le_mono_r; lia). simpl in *; lia. }
  rewrite (rd_nth _ _ mempty) by auto. f_equal.
  destruct (H1 s i (nth (s * gspw g + i) ch mempty)) as (W & R & C); auto.
  { apply nth_error_nth'; auto. }
  unfold chf. rewrite (mat_eta a0 _ W) at 1. rewrite R, C. reflexivity.
Qed.
Lemma layout_approx g ch : layout g ch ->
  rd ch (gK g * gspw g) = Ok (mk (hs g (gK g)) (ws g (gK g)) (chf ch (gK g * gspw g))).
Proof.
  intros (HL & _ & H1).
  rewrite (rd_nth _ _ mempty) by lia. f_equal.
  destruct (H1 (nth (gK g * gspw g) ch mempty)) as (W & R & C).
  { apply nth_error_nth'; lia. }
  unfold chf. rewrite (mat_eta a0 _ W) at 1. rewrite R, C. reflexivity.
Qed.

Lemma synth_ext dim t h w low low' ds ds' : 0 < h -> 0 < w ->
  (forall i j, i < h -> j < w -> low i j = low' i j) ->
  (forall b i j, i < h -> j < w -> ds b i j = ds' b i j) ->
  forall i j, synth dim t h w low ds i j = synth dim t h w low' ds' i j.
Proof.
  intros Hh Hw H1 H2 i j. unfold synth. destruct (dim =? 1).
  - apply sfilt_ext; auto.
  - apply (sep_ext _ _ (h * 2) (w * 2)); try (apply dmT_swf; lia); try reflexivity.
    intros a b Ha Hb. unfold joined.
    destruct (Nat.ltb_spec a h), (Nat.ltb_spec b w); auto; try apply H2; lia.
Qed.

Lemma compose_step_ok g ch mats s wm low :
  gwf g -> layout g ch -> tmats_ok g mats -> s < gK g -> mats s = Ok wm ->
  compose_step (gdim g) (mk (hs g (S s)) (ws g (S s)) low) ch (S s * gspw g) wm =
  Ok (mk (hs g s) (ws g s)
     (synth (gdim g) (gt g) (hs g (S s)) (ws g (S s)) low (fun i => chf ch (s * gspw g + i)))).
Proof.
  intros G HLay HM Hs Hwm. specialize (HM s Hs). rewrite Hwm in HM.
  pose proof (hs_step g s G Hs) as (Hh & Hh2). pose proof (gt_range g s G Hs) as Ht.
  unfold compose_step, synth.
  destruct (gdim_cases g G) as [E|E].
  - assert (Esp : gspw g = 1) by (unfold gspw; rewrite E; reflexivity).
    pose proof (layout_detail g ch s 0 HLay Hs ltac:(lia)) as Hd.
    rewrite Esp in *. rewrite E in *. cbn [Nat.eqb] in *.
    inversion HM; subst wm; clear HM. rewrite guard_true by lia. cbn [bind].
    replace (S s * 1 - 1) with (s * 1 + 0) by lia. rewrite Hd. cbn [bind].
    rewrite !ws_1 by auto. rewrite !mcol_mk by lia. cbn [bind]. unfold rd; simpl nth_error. cbn [bind].
    pose proof (lo_r_length (gt g) Ht) as HL. pose proof (hi_r_length (gt g)) as HH.
    rewrite (idwt_filter _ _ (Z.to_nat (gt g)) (hs g (S s)) (fun i => low i 0)
               (fun i => chf ch (s * 1 + 0) i 0)) by (rewrite ?rev_length; lia).
    cbn [bind]. rewrite mcolvec_mk. rewrite Hh. reflexivity.
  - pose proof (ws_step g s G E Hs) as (Hw & Hw2).
    assert (Esp : gspw g = 3) by (unfold gspw; rewrite E; reflexivity).
    pose proof (layout_detail g ch s 0 HLay Hs ltac:(lia)) as Hd0.
    pose proof (layout_detail g ch s 1 HLay Hs ltac:(lia)) as Hd1.
    pose proof (layout_detail g ch s 2 HLay Hs ltac:(lia)) as Hd2.
    rewrite Esp in *. rewrite E in *. cbn [Nat.eqb] in *.
    inversion HM; subst wm; clear HM. rewrite guard_true by lia. cbn [bind].
    replace (S s * 3 - 3) with (s * 3 + 0) by lia. replace (S s * 3 - 2) with (s * 3 + 1) by lia.
    replace (S s * 3 - 1) with (s * 3 + 2) by lia. rewrite Hd0, Hd1, Hd2. cbn [bind].
    unfold rd; simpl nth_error. cbn [bind].
    rewrite idwt2_mk; try (apply dmT_swf; lia); try (simpl; lia).
    rewrite (Nat.mul_comm (hs g (S s))), (Nat.mul_comm (ws g (S s))), <- Hh, <- Hw.
    replace (S s * 3 - 3) with (s * 3 + 0) by lia. reflexivity.
Qed.

Lemma compose_loop g ch mats n :
  gwf g -> layout g ch -> tmats_ok g mats -> n <= gK g ->
  loop n 0 (fun it channel =>
    let i := gK g - it in
    let* wm := mats (i - 1) in
    compose_step (gdim g) channel ch (i * gspw g) wm)
    (mk (hs g (gK g)) (ws g (gK g)) (chf ch (gK g * gspw g)))
  = Ok (mk (hs g (gK g - n)) (ws g (gK g - n)) (rc g ch n)).
Proof.
  intros G HLay HM. induction n; intros Hn.
  - simpl. rewrite Nat.sub_0_r. reflexivity.
  - rewrite loop_snoc, IHn by lia. cbn [bind]. rewrite Nat.add_0_l. cbv zeta.
    pose proof (HM (gK g - n - 1) ltac:(lia)) as HMn.
    destruct (mats (gK g - n - 1)) as [wm| |] eqn:Ewm; try (destruct (gdim g =? 1); discriminate).
    cbn [bind].
    set (s := gK g - S n). replace (gK g - n - 1) with s in Ewm by (unfold s; lia).
    replace (gK g - n) with (S s) by (unfold s; lia).
    rewrite (compose_step_ok g ch mats s) by (auto; unfold s; lia).
    reflexivity.
Qed.

Lemma compose_channel_ok p g mats (ch : decomposition T) k :
  gwf g -> layout g ch -> tmats_ok g mats -> dimension p = gdim g -> Z.to_nat (steps p) = gK g ->
  spw p = gspw g -> k <= gK g ->
  compose_channel p mats ch k = Ok (mk (hs g k) (ws g k) (rc g ch (gK g - k))).
Proof.
  intros G HLay HM Ed Es Ew Hk. unfold compose_channel. rewrite Ed, Es, Ew.
  rewrite (layout_approx g ch HLay). cbn [bind].
  rewrite (compose_loop g ch mats) by (auto; lia).
  replace (gK g - (gK g - k)) with k by lia. reflexivity.
Qed.

(** ** Layout of a decomposition *)
Lemma nth_error_flat_map {B} (f : nat -> list B) c n s i :
  (forall s, s < n -> length (f s) = c) -> s < n -> i < c ->
  nth_error (flat_map f (seq 0 n)) (s * c + i) = nth_error (f s) i.
Proof.
  induction n; intros H Hs Hi; [lia|].
  rewrite flat_map_seq_S.
  assert (HL : length (flat_map f (seq 0 n)) = n * c) by (apply flat_map_seq_length; intros; apply H; lia).
  destruct (Nat.eq_dec s n) as [->|Hne].
  - rewrite nth_error_app2 by lia. f_equal. lia.
  - assert (S s * c <= n * c) by (apply Nat.mul_le_mono_r; lia). simpl in *.
    rewrite nth_error_app1 by lia. apply IHn; auto; lia.
Qed.

Lemma dec_pure_nth_approx g den x : nth_error (dec_pure g den x) (gK g * gspw g) = Some (apm g x (gK g)).
Proof.
  unfold dec_pure.
  assert (HL : length (flat_map (fun s => map (fun m => den_apply (gdim g) den m s) (detm g x s)) (seq 0 (gK g))) = gK g * gspw g).
  { apply flat_map_seq_length. intros. rewrite map_length. apply detm_length. }
  rewrite nth_error_app2 by lia. rewrite HL, Nat.sub_diag. reflexivity.
Qed.

Lemma dec_pure_nth_detail g den x s i : s < gK g -> i < gspw g ->
  nth_error (dec_pure g den x) (s * gspw g + i) =
  option_map (fun d => den_apply (gdim g) den (mk (hs g (S s)) (ws g (S s)) d) s) (nth_error (detf g x s) i).
Proof.
  intros Hs Hi. unfold dec_pure.
  assert (HL : length (flat_map (fun s => map (fun m => den_apply (gdim g) den m s) (detm g x s)) (seq 0 (gK g))) = gK g * gspw g).
  { apply flat_map_seq_length. intros. rewrite map_length. apply detm_length. }
  assert (S s * gspw g <= gK g * gspw g) by (apply Nat.mul_le_mono_r; lia). simpl in H.
  rewrite nth_error_app1 by lia.
  rewrite (nth_error_flat_map (fun s => map (fun m => den_apply (gdim g) den m s) (detm g x s)) (gspw g))
    by (auto; intros; rewrite map_length; apply detm_length).
  unfold detm. rewrite map_map, nth_error_map. reflexivity.
Qed.

Lemma detf_length g x s : length (detf g x s) = gspw g.
Proof. unfold detf. rewrite ana_d_length. reflexivity. Qed.

Lemma den_apply_shape dim den (m : mat T) s :
  den_shape den -> mwf m -> (dim = 1 -> cols m = 1) ->
  mwf (den_apply dim den m s) /\ rows (den_apply dim den m s) = rows m /\ cols (den_apply dim den m s) = cols m.
Proof.
  intros [H1 H2] W Hc. unfold den_apply. destruct (Nat.eqb_spec dim 1) as [E|E].
  - split; [apply mcolvec_wf|]. simpl. rewrite H1. unfold mwf in W. rewrite (Hc E) in *. lia.
  - apply H2; auto.
Qed.

Lemma dec_pure_layout g den x : den_shape den -> layout g (dec_pure g den x).
Proof.
  intros Hden. split; [apply dec_pure_length|]. split.
  - intros s i m Hs Hi E. rewrite dec_pure_nth_detail in E by auto.
    destruct (nth_error (detf g x s) i) as [d|] eqn:Ed; [|discriminate].
    simpl in E. inversion E; subst m; clear E.
    destruct (den_apply_shape (gdim g) den (mk (hs g (S s)) (ws g (S s)) d) s) as (W & R & C); auto using mk_wf.
    intros E. apply ws_1; auto.
  - intros m E. rewrite dec_pure_nth_approx in E. inversion E; subst.
    split; [apply mk_wf|]. auto.
Qed.

End B.
