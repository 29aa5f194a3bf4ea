(** * P_Python: proofs about the Python module *)
Require Import List Bool Arith ZArith Lia ZifyBool.
Require Import Verif.M_Base Verif.P_Base Verif.M_Params Verif.M_Buffer Verif.M_View Verif.S_Params Verif.S_Buffer.
Require Import Verif.P_Api Verif.P_Api2 Verif.P_Params Verif.M_Python Verif.S_Python.
Import ListNotations.
Open Scope Z_scope.

Lemma idx3 c h w ch i j : (ch < c -> i < h -> j < w -> h * w * ch + w * i + j < c * h * w)%nat.
Proof.
  intros H1 H2 H3. assert (E1 : (w * i + j < h * w)%nat) by nia.
  assert (E2 : (h * w * ch + h * w <= c * h * w)%nat) by (replace (c * h * w)%nat with (h * w * c)%nat by lia; nia). lia.
Qed.

Section P.
Context {T : Type} {A : Arith T}.
Variable load : list Z -> T.
Variable cast : list Z -> option T.

(** ** Memory *)
Lemma load_ok mem off n : 0 <= off -> off + Z.of_nat n <= Z.of_nat (length mem) ->
  load_bytes mem off n = Ok (firstn n (skipn (Z.to_nat off) mem)).
Proof.
  intros H0 H. unfold load_bytes.
  rewrite tabulateM_ok with (g := fun i => nth (Z.to_nat off + i) mem 0).
  - f_equal. apply nth_ext with (d := 0) (d' := 0).
    + rewrite map_length, seq_length, firstn_length, skipn_length. lia.
    + intros i Hi. rewrite map_length, seq_length in Hi. rewrite nth_map_seq by auto.
      transitivity (nth i (skipn (Z.to_nat off) mem) 0).
      * rewrite <- (firstn_skipn (Z.to_nat off) mem) at 1. rewrite app_nth2; rewrite firstn_length; [|lia].
        f_equal. lia.
      * rewrite <- (firstn_skipn n (skipn (Z.to_nat off) mem)) at 1. rewrite app_nth1; [reflexivity|].
        rewrite firstn_length, skipn_length. lia.
  - intros i Hi. unfold byte_at. destruct (Z.ltb_spec (off + Z.of_nat i) 0); [lia|].
    rewrite (rd_nth _ _ 0) by lia. f_equal. f_equal. lia.
Qed.

Definition float_at (a : ndarray) (k : nat) : T :=
  load (firstn 4 (skipn (Z.to_nat (nd_off a + 4 * Z.of_nat k)) (nd_mem a))).

Lemma raw_ok a k : 0 <= nd_off a -> nd_off a + 4 * Z.of_nat (S k) <= Z.of_nat (length (nd_mem a)) ->
  raw_float load a k = Ok (float_at a k).
Proof. intros. unfold raw_float. rewrite load_ok by lia. reflexivity. Qed.

(** what is read: the first c*h*w floats of the memory, whatever the strides and the dtype *)
Lemma signals_mem a c h w : nd_shape a = [c; h; w] -> 0 <= nd_off a ->
  nd_off a + 4 * Z.of_nat (c * h * w) <= Z.of_nat (length (nd_mem a)) ->
  array_to_signals load a =
    Ok (map (fun ch => mk h w (fun i j => float_at a (h * w * ch + w * i + j)%nat)) (seq 0 c)).
Proof.
  intros Es H0 Hm. unfold array_to_signals. rewrite Es. cbn [rd nth_error bind].
  apply tabulateM_ok. intros ch Hch. apply mbuildM_ok. intros i j Hi Hj. apply raw_ok; auto.
  pose proof (idx3 c h w ch i j Hch Hi Hj). lia.
Qed.

Lemma signals_contiguous a c h w : c_contiguous a c h w ->
  exists data, array_to_signals load a = Ok data /\ signals_of load a c h w data.
Proof.
  intros (F & Ei & Es & Et & H0 & Hm). eexists. split; [apply signals_mem; eauto|].
  split; [rewrite map_length, seq_length; reflexivity|].
  intros ch m E.
  assert (Hch : (ch < c)%nat).
  { assert (X : nth_error (map (fun ch0 => mk h w (fun i j => float_at a (h * w * ch0 + w * i + j)%nat)) (seq 0 c)) ch <> None) by congruence.
    apply nth_error_Some in X. rewrite map_length, seq_length in X. exact X. }
  rewrite nth_error_map_seq in E by auto. injection E as <-.
  split; [repeat split; try apply mk_wf|].
  intros i j Hi Hj. eexists. split.
  - unfold item. rewrite Et, Ei. cbn [offset]. rewrite load_ok; [reflexivity| |].
    + nia.
    + pose proof (idx3 c h w ch i j Hch Hi Hj). nia.
  - rewrite mget_mk by auto. unfold float_at. do 5 f_equal. nia.
Qed.

(** ** decompose *)
Lemma py_decompose2_eq b a den c h w data :
  shape (bpar b) = [Z.of_nat w; Z.of_nat h] -> signum (bpar b) = Z.of_nat c ->
  nd_shape a = [c; h; w] -> nd_writable a = true -> array_to_signals load a = Ok data ->
  py_decompose load cast b a den = decompose b data den.
Proof.
  intros Ep Ec Es Ew Ed. unfold py_decompose, dimension. rewrite Ep. cbn [length Nat.eqb].
  unfold py_decompose2. rewrite Es. cbn [length Nat.eqb negb rd nth_error bind].
  rewrite Ec, Ep. cbn [rd nth_error bind]. rewrite !Z.eqb_refl. cbn [negb]. rewrite Ew. cbn [negb]. rewrite Ed. reflexivity.
Qed.

Lemma decompose_wrong b a den : length (shape (bpar b)) = 2%nat -> wrong_shape (bpar b) (signum (bpar b)) a ->
  py_decompose load cast b a den = Ok (false, b).
Proof.
  intros E2 W. unfold py_decompose, dimension. rewrite E2. cbn [Nat.eqb]. unfold py_decompose2.
  destruct (nd_shape a) as [|c [|h [|w [|x l]]]] eqn:Es; try reflexivity.
  destruct (shape (bpar b)) as [|pw [|ph [|? ?]]] eqn:Ep; try discriminate.
  cbn [length Nat.eqb negb rd nth_error bind].
  destruct (Z.eqb_spec (Z.of_nat c) (signum (bpar b))) as [E1|]; [|reflexivity]. cbn [negb].
  destruct (Z.eqb_spec (Z.of_nat h) ph) as [E3|]; [|reflexivity]. cbn [negb].
  destruct (Z.eqb_spec (Z.of_nat w) pw) as [E4|]; [|reflexivity].
  exfalso. apply (W c h w); auto. rewrite Ep. subst. auto.
Qed.

Lemma decompose_read_only b a den : length (shape (bpar b)) = 2%nat -> nd_writable a = false ->
  py_decompose load cast b a den = Ok (false, b).
Proof.
  intros E2 W. unfold py_decompose, dimension. rewrite E2. cbn [Nat.eqb]. unfold py_decompose2.
  destruct (nd_shape a) as [|c [|h [|w [|x l]]]] eqn:Es; try reflexivity.
  destruct (shape (bpar b)) as [|pw [|ph [|? ?]]] eqn:Ep; try discriminate.
  cbn [length Nat.eqb negb rd nth_error bind]. rewrite W.
  do 3 (destruct (_ =? _)%Z; [|reflexivity]). reflexivity.
Qed.

(** 1D: item by item, whatever the strides *)
Definition values_of (a : ndarray) (n : nat) (l : list T) : Prop :=
  length l = n /\ forall i x, nth_error l i = Some x ->
    exists bs, item a [i] = Ok bs /\ (if nd_f32 a then Some (load bs) else cast bs) = Some x.

Lemma cast_items_ok a is l :
  Forall2 (fun i x => exists bs, item a [i] = Ok bs /\ (if nd_f32 a then Some (load bs) else cast bs) = Some x) is l ->
  cast_items load cast a is = Ok (Some l).
Proof.
  induction 1 as [|i x is l (bs & E1 & E2) _ IH]; [reflexivity|]. cbn [cast_items].
  rewrite E1. cbn [bind]. rewrite E2, IH. reflexivity.
Qed.

Lemma values_forall2 a n l : values_of a n l ->
  Forall2 (fun i x => exists bs, item a [i] = Ok bs /\ (if nd_f32 a then Some (load bs) else cast bs) = Some x) (seq 0 n) l.
Proof.
  intros (E & H).
  assert (G : forall m s, (s + length m = n)%nat ->
    (forall i x, nth_error m i = Some x -> exists bs, item a [(s + i)%nat] = Ok bs /\ (if nd_f32 a then Some (load bs) else cast bs) = Some x) ->
    Forall2 (fun i x => exists bs, item a [i] = Ok bs /\ (if nd_f32 a then Some (load bs) else cast bs) = Some x) (seq s (length m)) m).
  { induction m as [|x m IH]; intros s Hs Hm; [constructor|]. cbn [length seq]. constructor.
    - specialize (Hm 0%nat x eq_refl). rewrite Nat.add_0_r in Hm. exact Hm.
    - apply IH; [cbn [length] in Hs; lia|]. intros i y Hy. replace (S s + i)%nat with (s + S i)%nat by lia. apply Hm. exact Hy. }
  rewrite <- E. apply G; [lia|]. intros i x Hx. exact (H i x Hx).
Qed.

Lemma py_decompose1_eq b a den n l :
  shape (bpar b) = [Z.of_nat n] -> nd_shape a = [n] -> values_of a n l ->
  py_decompose load cast b a den = decompose1 b l den.
Proof.
  intros Ep Es V. unfold py_decompose, dimension. rewrite Ep. cbn [length Nat.eqb].
  unfold py_decompose1. rewrite Es, Ep. cbn [length Nat.eqb negb rd nth_error bind]. rewrite Z.eqb_refl. cbn [negb].
  rewrite (cast_items_ok _ _ l) by (apply values_forall2; auto). reflexivity.
Qed.

Lemma decompose1_wrong b a den n : shape (bpar b) = [n] -> (forall k, nd_shape a = [k] -> Z.of_nat k <> n) ->
  py_decompose load cast b a den = Ok (false, b).
Proof.
  intros Ep W. unfold py_decompose, dimension. rewrite Ep. cbn [length Nat.eqb]. unfold py_decompose1.
  destruct (nd_shape a) as [|k [|? ?]] eqn:Es; try reflexivity. rewrite Ep. cbn [length Nat.eqb negb rd nth_error bind].
  destruct (Z.eqb_spec (Z.of_nat k) n) as [E|]; [exfalso; eapply W; eauto|reflexivity].
Qed.

(** ** compose *)
Lemma signals_to_array_ok (data : list (mat T)) c h w : length data = c -> (1 <= c)%nat -> Forall (sized h w) data ->
  exists out, signals_to_array data = Ok out /\ array_of data c h w out.
Proof.
  intros Ec Hc HF. unfold signals_to_array. destruct data as [|d0 rest] eqn:Ed; [cbn in Ec; lia|].
  cbn [rd nth_error bind]. rewrite <- Ed in *. pose proof HF as HF0. rewrite Ed in HF0.
  inversion HF0 as [|? ? (W0 & R0 & C0) _]; subst x l. rewrite R0, C0.
  pose proof HF as FA. rewrite Forall_forall in FA.
  destruct (Nat.eq_dec (h * w) 0) as [Z|NZ].
  - rewrite Z, Nat.mul_0_r. cbn [tabulateM seq mapM bind]. eexists. split; [reflexivity|].
    split; [cbn [ashape]; congruence|]. split; [cbn [aelts length]; nia|]. intros ch m i j _ Hi Hj. nia.
  - assert (exists x0 : T, True) as (x0 & _).
    { destruct (elts d0) as [|x ?] eqn:Ee; [|exists x; auto]. unfold mwf in W0. rewrite R0, C0, Ee in W0. cbn in W0. lia. }
    set (g := fun k => mel x0 (nth (k / (h * w)) data d0) ((k mod (h * w)) / w) ((k mod (h * w)) mod w)).
    rewrite tabulateM_ok with (g := g).
    + cbn [bind]. eexists. split; [reflexivity|]. split; [cbn [ashape]; congruence|].
      split; [cbn [aelts]; rewrite map_length, seq_length; lia|].
      intros ch m i j Em Hi Hj. assert (Hch : (ch < c)%nat) by (rewrite <- Ec; apply nth_error_Some; congruence).
      destruct (FA m (nth_error_In _ _ Em)) as (W & R & C).
      exists (mel x0 m i j). split; [apply mget_mel; auto; lia|]. cbn [aelts].
      replace ((ch * h + i) * w + j)%nat with (ch * (h * w) + (i * w + j))%nat by lia.
      assert (Hij : (i * w + j < h * w)%nat) by nia.
      rewrite nth_error_map_seq by nia. f_equal. unfold g.
      rewrite idx_div, idx_mod by auto. rewrite idx_div, idx_mod by auto.
      rewrite (nth_error_nth _ _ _ Em). reflexivity.
    + intros k Hk. assert (Hq : (k / (h * w) < length data)%nat) by (apply Nat.div_lt_upper_bound; lia).
      rewrite (rd_nth _ _ d0) by auto. cbn [bind]. unfold g.
      destruct (FA _ (nth_In data d0 Hq)) as (W & R & C).
      pose proof (Nat.mod_upper_bound k (h * w) NZ). assert (w <> 0%nat) by nia.
      apply mget_mel; auto; [rewrite R; apply Nat.div_lt_upper_bound; lia|rewrite C; apply Nat.mod_upper_bound; lia].
Qed.

Lemma py_compose2_eq (b : buffer T) sf data c h w :
  length (shape (bpar b)) = 2%nat -> compose b sf = Ok (true, data) -> length data = c -> (1 <= c)%nat -> Forall (sized h w) data ->
  exists out, py_compose b sf = Ok (Some out) /\ array_of data c h w out.
Proof.
  intros E2 Ec El Hc HF. destruct (signals_to_array_ok data c h w El Hc HF) as (out & E & H). exists out.
  split; auto. unfold py_compose, dimension. rewrite E2. cbn [Nat.eqb]. rewrite Ec. cbn [bind fst snd]. rewrite E. reflexivity.
Qed.

(** ** slices *)
Lemma int_of_id z : - 2 ^ 31 <= z < 2 ^ 31 -> int_of z = z.
Proof. intros H. unfold int_of. rewrite Z.mod_small; lia. Qed.
Lemma int_of_wrap z : - 2 ^ 31 <= z < 2 ^ 31 -> int_of (wrap64 z) = z.
Proof.
  intros H. unfold int_of, wrap64.
  assert (E : (z mod 2 ^ 64 + 2 ^ 31) mod 2 ^ 32 = (z + 2 ^ 31) mod 2 ^ 32).
  { pose proof (Z.div_mod z (2 ^ 64) ltac:(lia)) as D.
    replace (z mod 2 ^ 64 + 2 ^ 31) with (z + 2 ^ 31 + (- (z / 2 ^ 64) * 2 ^ 32) * 2 ^ 32) by lia.
    apply Z.mod_add. lia. }
  rewrite E. rewrite Z.mod_small; lia.
Qed.

Definition low (n : Z) (o : option Z) : Z :=
  match o with None => 0 | Some x => if x <? 0 then Z.max 0 (x + n) else Z.min x n end.
Definition high (n : Z) (o : option Z) : Z :=
  match o with None => n | Some x => if x <? 0 then Z.max 0 (x + n) else Z.min x n end.

Lemma adjust_low n x : 0 <= n < 2 ^ 31 -> adjust false n (clamp x) = if x <? 0 then Z.max 0 (x + n) else Z.min x n.
Proof.
  intros Hn. unfold adjust, clamp. destruct (Z.ltb_spec x 0).
  - destruct (Z.ltb_spec (Z.max (- 2 ^ 63) (Z.min (2 ^ 63 - 1) x)) 0); [|lia].
    cbv zeta. destruct (Z.ltb_spec (Z.max (- 2 ^ 63) (Z.min (2 ^ 63 - 1) x) + n) 0); lia.
  - destruct (Z.ltb_spec (Z.max (- 2 ^ 63) (Z.min (2 ^ 63 - 1) x)) 0); [lia|].
    destruct (Z.leb_spec n (Z.max (- 2 ^ 63) (Z.min (2 ^ 63 - 1) x))); lia.
Qed.

Lemma getitem_eq p start stop step : 0 <= signum p < 2 ^ 31 -> step = None \/ step = Some 1 ->
  py_getitem p start stop step =
    let s := low (signum p) start in let e := high (signum p) stop in
    if s =? e then None else Some (s, e - s).
Proof.
  intros Hn Hs. unfold py_getitem, slice_compute.
  assert (K : match step with None => 1 | Some k => Z.max (- (2 ^ 63 - 1)) (clamp k) end = 1) by (destruct Hs as [-> | ->]; reflexivity).
  rewrite K. cbn [Z.eqb Z.ltb Z.compare]. change (1 <? wrap64 1) with false. cbv iota zeta.
  set (n := signum p) in *.
  assert (El : adjust false n (match start with None => 0 | Some x => clamp x end) = low n start).
  { destruct start as [x|]; [apply adjust_low; auto|]. unfold adjust, low. cbn [Z.ltb Z.compare]. destruct (Z.leb_spec n 0); lia. }
  assert (Eh : adjust false n (match stop with None => 2 ^ 63 - 1 | Some x => clamp x end) = high n stop).
  { destruct stop as [x|]; [apply adjust_low; auto|]. unfold adjust, high.
    destruct (Z.ltb_spec (2 ^ 63 - 1) 0); [lia|]. destruct (Z.leb_spec n (2 ^ 63 - 1)); lia. }
  rewrite El, Eh.
  assert (0 <= low n start <= n) by (unfold low; destruct start as [x|]; [destruct (Z.ltb_spec x 0)|]; lia).
  assert (0 <= high n stop <= n) by (unfold high; destruct stop as [x|]; [destruct (Z.ltb_spec x 0)|]; lia).
  destruct (low n start =? high n stop); [reflexivity|]. rewrite int_of_id, int_of_wrap by lia. reflexivity.
Qed.

Lemma selects_range n start stop i : 0 <= n -> selects n start stop i <-> low n start <= i < high n stop.
Proof.
  intros Hn. unfold selects, after, before, low, high.
  destruct start as [x|], stop as [y|]; try destruct (Z.ltb_spec x 0); try destruct (Z.ltb_spec y 0); lia.
Qed.

Theorem slices_select p start stop step : 0 <= signum p < 2 ^ 31 -> step = None \/ step = Some 1 ->
  ((exists i, selects (signum p) start stop i) ->
     exists s c, py_getitem p start stop step = Some (s, c) /\ 1 <= c /\
       (forall i, selects (signum p) start stop i <-> s <= i < s + c)) /\
  ((forall i, ~ selects (signum p) start stop i) ->
     py_getitem p start stop step = None \/
     exists s c, py_getitem p start stop step = Some (s, c) /\ c < 0 /\ 0 <= s + c).
Proof.
  intros Hn Hs. rewrite getitem_eq by auto. cbv zeta. set (n := signum p) in *.
  assert (B1 : 0 <= low n start <= n) by (unfold low; destruct start as [x|]; [destruct (Z.ltb_spec x 0)|]; lia).
  assert (B2 : 0 <= high n stop <= n) by (unfold high; destruct stop as [x|]; [destruct (Z.ltb_spec x 0)|]; lia).
  split.
  - intros (i & Hi). apply selects_range in Hi; [|lia]. destruct (Z.eqb_spec (low n start) (high n stop)); [lia|].
    do 2 eexists. split; [reflexivity|]. split; [lia|]. intros k. rewrite selects_range by lia. lia.
  - intros N. destruct (Z.eqb_spec (low n start) (high n stop)); [left; reflexivity|]. right.
    do 2 eexists. split; [reflexivity|].
    assert (high n stop <= low n start).
    { destruct (Z_le_gt_dec (high n stop) (low n start)); auto. exfalso. apply (N (low n start)). apply selects_range; lia. }
    lia.
Qed.

Theorem other_steps p start stop k : 0 <= signum p < 2 ^ 31 -> k <> 1 -> py_getitem p start stop (Some k) = None.
Proof.
  intros Hn Hk. unfold py_getitem, slice_compute.
  set (k' := Z.max (- (2 ^ 63 - 1)) (clamp k)).
  assert (R : k' = 0 \/ 1 < wrap64 k').
  { unfold k', clamp, wrap64. destruct (Z.eq_dec k 0) as [->|N0]; [left; reflexivity|]. right.
    destruct (Z_lt_ge_dec k 0).
    - set (z := Z.max _ _). assert (Hz : - 2 ^ 63 < z <= -1) by (unfold z; lia).
      replace (z mod 2 ^ 64) with (z + 2 ^ 64); [lia|].
      symmetry. rewrite <- (Z.mod_add z 1 (2 ^ 64)) by lia. apply Z.mod_small. lia.
    - set (z := Z.max _ _). assert (Hz : 1 < z < 2 ^ 63) by (unfold z; lia). rewrite Z.mod_small by lia. lia. }
  destruct (Z.eqb_spec k' 0); [reflexivity|]. destruct R as [R|R]; [contradiction|]. cbv zeta iota.
  destruct (Z.ltb_spec 1 (wrap64 k')); [reflexivity|lia].
Qed.

(** an empty slice that is not refused: composing it fails inside C++, decomposing is refused *)
Theorem reversed_slice (b : buffer T) s c sf a den : length (shape (bpar b)) = 2%nat -> 0 <= signum (bpar b) < 2 ^ 31 ->
  c < 0 -> 0 <= s < 2 ^ 31 -> 0 <= s + c -> s <= signum (bpar b) -> 0 <= sf ->
  py_view_compose b (s, c) sf = Throw /\ py_view_decompose load b (s, c) a den = Ok (false, b).
Proof.
  intros E2 Hn Hc Hs Hsc Hb Hsf. unfold py_view_compose, py_view_decompose, dimension. rewrite E2. cbn [Nat.eqb negb fst snd]. split.
  - unfold view_compose, check_range. cbn [vstart vcount]. rewrite guard_true by lia. cbn [bind].
    unfold wrap64. rewrite Z.mod_small by lia. destruct (Z.ltb_spec (signum (bpar b)) (s + c)); [lia|]. cbn [negb].
    unfold scale_arg. destruct (Z.ltb_spec sf 0); [lia|]. cbn [bind]. destruct (Z.ltb_spec c 0); [reflexivity|lia].
  - destruct (nd_shape a) as [|c' [|h [|w [|x l]]]] eqn:Es; try reflexivity.
    cbn [length Nat.eqb negb rd nth_error bind]. destruct (Z.eqb_spec (Z.of_nat c') c); [lia|]. reflexivity.
Qed.

(** ** views *)
Lemma py_view_decompose_eq b s a den c h w data :
  shape (bpar b) = [Z.of_nat w; Z.of_nat h] -> nd_shape a = [c; h; w] -> nd_writable a = true ->
  array_to_signals load a = Ok data ->
  py_view_decompose load b (s, Z.of_nat c) a den = view_decompose (View s (Z.of_nat c) true) b data den.
Proof.
  intros Ep Es Ew Ed. unfold py_view_decompose, dimension. rewrite Ep, Es. cbn [length Nat.eqb negb rd nth_error bind fst snd].
  rewrite !Z.eqb_refl, Ew, Ed. reflexivity.
Qed.

Lemma view_wrong b s c a den : length (shape (bpar b)) = 2%nat -> wrong_shape (bpar b) c a ->
  py_view_decompose load b (s, c) a den = Ok (false, b).
Proof.
  intros E2 W. unfold py_view_decompose, dimension. rewrite E2. cbn [Nat.eqb negb snd].
  destruct (nd_shape a) as [|c' [|h [|w [|x l]]]] eqn:Es; try reflexivity.
  destruct (shape (bpar b)) as [|pw [|ph [|? ?]]] eqn:Ep; try discriminate.
  cbn [length Nat.eqb negb rd nth_error bind].
  destruct (Z.eqb_spec (Z.of_nat c') c) as [E1|]; [|reflexivity]. cbn [negb].
  destruct (Z.eqb_spec (Z.of_nat h) ph) as [E3|]; [|reflexivity]. cbn [negb].
  destruct (Z.eqb_spec (Z.of_nat w) pw) as [E4|]; [|reflexivity].
  exfalso. apply (W c' h w); auto. rewrite Ep. subst. auto.
Qed.

Lemma py_view_compose_eq b s sf r res c h w : length (shape (bpar b)) = 2%nat -> (1 <= c)%nat ->
  in_range (View s (Z.of_nat c) true) (bpar b) -> compose b sf = Ok (r, res) -> Z.of_nat (length res) = signum (bpar b) ->
  Forall (sized h w) res ->
  exists out, py_view_compose b (s, Z.of_nat c) sf = Ok (Some out) /\ array_of (firstn c (skipn (Z.to_nat s) res)) c h w out.
Proof.
  intros E2 Hc HR E HL HF. destruct (view_compose_slice _ b sf r res HR E) as [_ EV]. cbn [vstart vcount] in EV. rewrite Nat2Z.id in EV.
  destruct (signals_to_array_ok (firstn c (skipn (Z.to_nat s) res)) c h w) as (out & E1 & E3); auto.
  - rewrite firstn_length, skipn_length. unfold in_range in HR. cbn [vstart vcount] in HR. lia.
  - apply Forall_forall. intros m Hm. rewrite Forall_forall in HF. apply HF.
    assert (X : In m (skipn (Z.to_nat s) res)).
    { rewrite <- (firstn_skipn c (skipn (Z.to_nat s) res)). apply in_or_app. auto. }
    rewrite <- (firstn_skipn (Z.to_nat s) res). apply in_or_app. auto.
  - exists out. split; auto. unfold py_view_compose, dimension. rewrite E2. cbn [Nat.eqb negb fst snd]. rewrite EV. cbn [bind].
    rewrite E1. reflexivity.
Qed.
Lemma view_not_2d b v sf a den : length (shape (bpar b)) <> 2%nat ->
  py_view_compose b v sf = Ok None /\ py_view_decompose load b v a den = Ok (false, b).
Proof.
  intros E2. unfold py_view_compose, py_view_decompose, dimension. destruct (Nat.eqb_spec (length (shape (bpar b))) 2); [contradiction|].
  split; reflexivity.
Qed.

(** ** subbands *)
Variable store : T -> list Z.
Hypothesis store_len : forall x, length (store x) = 4%nat.
Hypothesis load_store : forall x, load (store x) = x.

Lemma store_at (l : list T) k x : nth_error l k = Some x -> firstn 4 (skipn (4 * k) (flat_map store l)) = store x.
Proof.
  revert k. induction l as [|y l IH]; intros [|k] E; try discriminate.
  - injection E as ->. cbn [flat_map]. rewrite Nat.mul_0_r. cbn [skipn]. rewrite firstn_app, store_len, Nat.sub_diag, firstn_O, app_nil_r.
    rewrite firstn_all2; [reflexivity|rewrite store_len; auto].
  - cbn [flat_map]. replace (4 * S k)%nat with (4 + 4 * k)%nat by lia. rewrite skipn_app, store_len.
    replace (4 + 4 * k - 4)%nat with (4 * k)%nat by lia. rewrite skipn_all2 by (rewrite store_len; lia). apply IH. exact E.
Qed.
Lemma store_length (l : list T) : length (flat_map store l) = (4 * length l)%nat.
Proof. induction l as [|x l IH]; [reflexivity|]. cbn [flat_map length]. rewrite app_length, store_len, IH. lia. Qed.

Lemma mat_to_array_ok (m : mat T) : mwf m -> mat_to_array m = Ok (Arr [rows m; cols m] (elts m)).
Proof.
  intros W. unfold mat_to_array. destruct (elts m) as [|x0 l] eqn:Ee.
  - assert (Z0 : (rows m * cols m = 0)%nat) by (unfold mwf in W; rewrite Ee in W; cbn in W; lia). rewrite Z0. reflexivity.
  - rewrite tabulateM_ok with (g := fun k => nth k (elts m) x0).
    + cbn [bind]. rewrite <- W. rewrite map_seq_nth, Ee. reflexivity.
    + intros k Hk. destruct (idx_inv _ _ _ Hk) as (H1 & H2 & H3). rewrite (mget_wf _ _ _ x0) by auto. f_equal. f_equal. lia.
Qed.

Lemma array_to_mat_ok (m : mat T) : mwf m -> array_to_mat load (nd_of store (rows m) (cols m) (elts m)) = Ok m.
Proof.
  intros W. unfold array_to_mat, nd_of. cbn [nd_shape rd nth_error bind nd_writable check].
  destruct (elts m) as [|x0 l] eqn:Ee.
  - assert (Z0 : (rows m * cols m = 0)%nat) by (unfold mwf in W; rewrite Ee in W; cbn in W; lia).
    unfold mbuildM. rewrite Z0. cbn [seq mapM bind]. destruct m; cbn in *; subst; reflexivity.
  - rewrite <- Ee. rewrite mbuildM_ok with (g := mel x0 m).
    + rewrite <- mat_eta by auto. reflexivity.
    + intros i j Hi Hj. assert (Hk : (cols m * i + j < length (elts m))%nat) by (unfold mwf in W; rewrite W; nia).
      rewrite raw_ok; cbn [nd_off nd_mem]; [|lia|rewrite store_length; lia].
      f_equal. unfold float_at. cbn [nd_off nd_mem].
      replace (Z.to_nat (0 + 4 * Z.of_nat (cols m * i + j))) with (4 * (cols m * i + j))%nat by lia.
      rewrite (store_at _ _ (nth (cols m * i + j) (elts m) x0)) by (apply nth_error_nth'; auto).
      rewrite load_store. unfold mel. f_equal. lia.
Qed.

(** b.decompositions given back to the constructor *)
Definition as_input (a : array T) : ndarray := nd_of store (nth 0 (ashape a) 0%nat) (nth 1 (ashape a) 0%nat) (aelts a).

Lemma construct_round_trip p (b : buffer T) :
  accepted p -> bpar b = p -> Z.of_nat (length (bdec b)) = signum p -> 1 <= signum p ->
  Forall (fun ch => length ch = (nsteps p * bands p + 1)%nat /\ Forall mwf ch) (bdec b) ->
  exists arrays, decompositions_to_py (bdec b) = Ok arrays /\
    py_construct load p (map (map as_input) arrays) = Ok b.
Proof.
  intros HA Ep El H1 HF.
  assert (E : decompositions_to_py (bdec b) = Ok (map (map (fun m => Arr [rows m; cols m] (elts m))) (bdec b))).
  { unfold decompositions_to_py. apply mapM_ok. intros ch Hch. rewrite Forall_forall in HF. destruct (HF ch Hch) as (_ & W).
    apply mapM_ok. intros m Hm. rewrite Forall_forall in W. apply mat_to_array_ok; auto. }
  eexists. split; [exact E|].
  assert (E2 : py_to_decompositions load (map (map as_input) (map (map (fun m => Arr [rows m; cols m] (elts m))) (bdec b))) = Ok (bdec b)).
  { unfold py_to_decompositions. rewrite map_map. 
    assert (G : forall l : ndecomposition T, Forall (fun ch => Forall mwf ch) l ->
      mapM (mapM (array_to_mat load)) (map (fun x => map as_input (map (fun m => Arr [rows m; cols m] (elts m)) x)) l) = Ok l).
    { induction l as [|ch l IH]; intros F; [reflexivity|]. inversion F as [|? ? F1 F2]; subst. cbn [map mapM].
      rewrite IH by auto.
      assert (G2 : mapM (array_to_mat load) (map as_input (map (fun m => Arr [rows m; cols m] (elts m)) ch)) = Ok ch).
      { clear IH F F2 l. induction ch as [|m ch IH]; [reflexivity|]. inversion F1 as [|? ? W1 W2]; subst. cbn [map mapM].
        rewrite IH by auto. unfold as_input at 1. cbn [ashape nth aelts]. rewrite array_to_mat_ok by auto. reflexivity. }
      rewrite G2. reflexivity. }
    apply G. eapply Forall_impl; [|exact HF]. cbn beta. tauto. }
  unfold py_construct.
  destruct (map (map as_input) _) as [|x0 l0] eqn:Em.
  - destruct (bdec b); [cbn in El; lia|discriminate].
  - rewrite E2. cbn [bind]. unfold new_buffer_with.
    assert (En : exists b0 : buffer T, new_buffer p = Ok b0 /\ bpar b0 = p /\ Z.of_nat (length (bdec b0)) = signum p /\
        forall ch, In ch (bdec b0) -> length ch = subband_count p).
    { destruct HA as (HR & HL & Ht & _). destruct (constructor_correct T p HR) as (C & _); [lia|].
      destruct (C HL) as (b0 & X1 & X2 & X3 & X4). exists b0. repeat split; auto. intros ch Hch. apply X4; auto. }
    destruct En as (b0 & En & Epb & Elb & Hlb). rewrite En. cbn [bind].
    rewrite Epb, El, Z.eqb_refl. cbn [negb].
    rewrite (proj2 (forallb_forall _ _)).
    + cbn [negb]. destruct b as [pb db]; cbn in *; subst. reflexivity.
    + intros (c0 & c1) Hin. cbn [fst snd]. apply Nat.eqb_eq.
      rewrite (Hlb c0) by (eapply in_combine_l; eauto).
      rewrite Forall_forall in HF. destruct (HF c1 ltac:(eapply in_combine_r; eauto)) as (-> & _).
      unfold subband_count, nsteps, bands, is_1d. destruct HA as (_ & HL & _). destruct HL as (L & _).
      destruct (shape p) as [|? [|? [|? ?]]]; cbn [length Nat.eqb] in *; try (destruct L; discriminate); lia.
Qed.
End P.

(** ** whole calls *)
Section Whole.
Context {T : Type} {A : Arith T}.
Variable load : list Z -> T.
Variable cast : list Z -> option T.

Lemma signals_shaped p a c h w data : shape p = [Z.of_nat w; Z.of_nat h] -> signals_of load a c h w data -> Forall (shaped p) data.
Proof.
  intros Ep (_ & H). apply Forall_forall. intros m Hm. apply In_nth_error in Hm as (ch & Hch).
  destruct (H ch m Hch) as ((W & R & C) & _). unfold shaped, drows, dcols. rewrite Ep, !Nat2Z.id. auto.
Qed.

Theorem py_cycle p (b : buffer T) a den c h w :
  accepted p -> reachable p b -> keeps_shape den ->
  shape p = [Z.of_nat w; Z.of_nat h] -> signum p = Z.of_nat c -> (1 <= c)%nat ->
  c_contiguous a c h w -> nd_writable a = true ->
  exists data b', signals_of load a c h w data /\
    py_decompose load cast b a den = Ok (true, b') /\ decompose b data den = Ok (true, b') /\
    forall sf, 0 <= sf <= steps p ->
      exists res out, compose b' sf = Ok (true, res) /\ py_compose b' sf = Ok (Some out) /\
        array_of res c (h / 2 ^ Z.to_nat sf) (w / 2 ^ Z.to_nat sf) out.
Proof.
  intros HA HR HK Ep Ec Hc HC Hw.
  destruct (signals_contiguous load a c h w HC) as (data & Ed & HS). exists data.
  assert (Eb : bpar b = p).
  { destruct (reachable_weak p b HA HR) as (E & _); auto. }
  destruct (decompose_compose_safe' p b data den HA HR HK) as (b' & D & E' & Hl & _ & HCmp).
  { lia. }
  { destruct HS as (-> & _). auto. }
  { eapply signals_shaped; eauto. }
  exists b'. split; auto. split.
  - rewrite (py_decompose2_eq load cast b a den c h w data); auto; try (rewrite Eb; auto). apply HC.
  - split; [auto|]. intros sf Hsf. destruct (HCmp sf Hsf) as (res & E1 & E2 & E3).
    assert (I : is_1d p = false) by (unfold is_1d; rewrite Ep; reflexivity). rewrite I in E3.
    unfold drows, dcols in E3. rewrite Ep, !Nat2Z.id in E3.
    destruct (py_compose2_eq b' sf res c (h / 2 ^ Z.to_nat sf) (w / 2 ^ Z.to_nat sf)) as (out & E4 & E5); auto.
    + rewrite E', Ep. reflexivity.
    + lia.
    + exists res, out. auto.
Qed.

Theorem py_pass_through p (b : buffer T) a den c h w :
  accepted p -> steps p = 0 -> reachable p b -> keeps_shape den ->
  shape p = [Z.of_nat w; Z.of_nat h] -> signum p = Z.of_nat c -> (1 <= c)%nat ->
  c_contiguous a c h w -> nd_writable a = true ->
  exists b' out, py_decompose load cast b a den = Ok (true, b') /\ py_compose b' 0 = Ok (Some out) /\
    ashape out = [c; h; w] /\
    forall ch i j, (ch < c)%nat -> (i < h)%nat -> (j < w)%nat ->
      exists bs, item a [ch; i; j] = Ok bs /\ nth_error (aelts out) ((ch * h + i) * w + j) = Some (load bs).
Proof.
  intros HA Hs HR HK Ep Ec Hc HC Hw.
  destruct (py_cycle p b a den c h w) as (data & b' & HS & E1 & E2 & HCmp); auto.
  destruct (HCmp 0 ltac:(lia)) as (res & out & E3 & E4 & E5).
  destruct (pass_through p b data den HA Hs HR HK) as (b2 & P1 & _ & _ & P2).
  { lia. }
  { destruct HS as (-> & _). auto. }
  { eapply signals_shaped; eauto. }
  rewrite E2 in P1. injection P1 as <-. rewrite E3 in P2. assert (res = data) by congruence. subst res.
  exists b', out. split; auto. split; auto. cbn [Z.to_nat Nat.pow] in E5. rewrite !Nat.div_1_r in E5.
  destruct E5 as (S1 & S2 & S3). split; auto. intros ch i j H1 H2 H3. destruct HS as (L & HS).
  destruct (nth_error data ch) as [m|] eqn:Em; [|apply nth_error_None in Em; lia].
  destruct (HS ch m Em) as (_ & HI). destruct (HI i j H2 H3) as (bs & B1 & B2).
  destruct (S3 ch m i j Em H2 H3) as (x & X1 & X2). exists bs. split; auto. rewrite X2. congruence.
Qed.

(** 1D: channel 0 through the Python API is the C++ call with one column *)
Lemma decompose1_eq (b : buffer T) l den : signum (bpar b) = 1 -> decompose1 b l den = decompose b [mcolvec l] den.
Proof. intros E. unfold decompose1, decompose. rewrite E. reflexivity. Qed.

Lemma compose1_eq (b : buffer T) sf m n : signum (bpar b) = 1 -> compose b sf = Ok (true, [m]) -> sized n 1 m ->
  compose1 b sf = Ok (true, elts m).
Proof.
  intros E Ec (W & R & C). unfold compose in Ec. unfold compose1. destruct (scale_arg sf) as [k| |]; try discriminate.
  cbn [bind] in *. rewrite Ec. cbn [bind fst snd rd nth_error].
  assert (M : mcol m 0 = Ok (elts m)).
  { unfold mcol. rewrite C, R. cbn [Nat.ltb Nat.leb check bind].
    destruct (elts m) as [|x0 l] eqn:Ee.
    - assert (n = 0%nat) by (unfold mwf in W; rewrite R, C, Ee in W; cbn in W; lia). subst n. rewrite H. reflexivity.
    - rewrite tabulateM_ok with (g := fun i => nth i (elts m) x0).
      + unfold mwf in W. rewrite R, C, Nat.mul_1_r in W. rewrite <- W, map_seq_nth, Ee. reflexivity.
      + intros i Hi. rewrite (mget_wf m i 0 x0) by (auto; lia). rewrite C. do 2 f_equal. lia. }
  rewrite M. reflexivity.
Qed.

Theorem py_cycle1 p (b : buffer T) a den n l :
  accepted p -> reachable p b -> keeps_shape den -> shape p = [Z.of_nat n] -> signum p = 1 ->
  nd_shape a = [n] -> values_of load cast a n l ->
  exists b', py_decompose load cast b a den = Ok (true, b') /\ decompose b [mcolvec l] den = Ok (true, b') /\
    forall sf, 0 <= sf <= steps p ->
      exists m, compose b' sf = Ok (true, [m]) /\ sized (n / 2 ^ Z.to_nat sf) 1 m /\
        py_compose b' sf = Ok (Some (Arr [(n / 2 ^ Z.to_nat sf)%nat] (elts m))).
Proof.
  intros HA HR HK Ep Ec Es HV.
  assert (Eb : bpar b = p) by (destruct (reachable_weak p b HA HR) as (E & _); auto).
  destruct (decompose_compose_safe' p b [mcolvec l] den HA HR HK) as (b' & D & E' & _ & _ & HCmp).
  { lia. }
  { cbn [length]. lia. }
  { constructor; [|constructor]. destruct HV as (L & _). unfold shaped, mwf, drows, dcols, mcolvec; cbn [rows cols elts].
    rewrite Ep, Nat2Z.id. repeat split; auto; lia. }
  exists b'. split.
  - rewrite (py_decompose1_eq load cast b a den n l); auto; [|rewrite Eb; auto]. rewrite decompose1_eq by congruence. auto.
  - split; auto. intros sf Hsf. destruct (HCmp sf Hsf) as (res & E1 & E2 & E3).
    destruct res as [|m [|? ?]]; cbn [length] in E2; try lia. inversion E3 as [|? ? S _]; subst.
    assert (I : is_1d (bpar b) = true) by (unfold is_1d; rewrite Ep; reflexivity). rewrite I in S.
    unfold drows in S. rewrite Ep, Nat2Z.id in S. exists m. split; auto. split; auto.
    unfold py_compose, dimension. rewrite E', Ep. cbn [length Nat.eqb].
    rewrite (compose1_eq b' sf m _ ltac:(congruence) E1 S). cbn [bind fst snd].
    destruct S as (W & R & C). unfold mwf in W. rewrite W, R, C, Nat.mul_1_r. reflexivity.
Qed.

Theorem py_no_channels p (b : buffer T) sf : accepted p -> length (shape p) = 2%nat -> signum p = 0 ->
  new_buffer p = Ok b -> 0 <= sf <= steps p -> py_compose b sf = UB.
Proof.
  intros HA E2 Es Eb Hsf.
  destruct (reachable_weak p b HA (reach_new _ _ Eb)) as (Ep & El & _).
  destruct (view_compose_ok p (View 0 0 true) b sf HA Ep) as (out & Ev & Ho); auto.
  { unfold in_range; cbn [vstart vcount]. lia. }
  { cbn [vstart vcount]. intros i ch Hi. lia. }
  cbn [vcount] in Ho. destruct out as [|? ?]; [|cbn [length] in Ho; lia].
  assert (Ec : compose b sf = Ok (true, [])).
  { unfold view_compose, check_range in Ev. cbn [vstart vcount] in Ev. unfold compose. rewrite Ep, Es in *.
    cbn [guard bind Z.leb Z.ltb Z.compare Z.add Z.opp andb negb wrap64 Z.modulo Z.div_eucl] in Ev. cbn [Z.to_nat] in *.
    destruct (scale_arg sf) as [k| |]; try discriminate. cbn [bind] in *.
    change ((- 2 ^ 31 <=? 0) && (0 <? 2 ^ 31)) with true in Ev. cbn [guard bind negb] in Ev.
    destruct (compose_impl p (bdec b) k 0 0) as [[r d]| |] eqn:EX; try discriminate.
    cbn [bind fst snd] in Ev. injection Ev as -> ->. reflexivity. }
  unfold py_compose, dimension. rewrite Ep, E2. cbn [Nat.eqb]. rewrite Ec. reflexivity.
Qed.
End Whole.
