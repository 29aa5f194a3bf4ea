(** * T_Python: properties C72 .. C78, the Python module *)
Require Import List Bool Arith ZArith Lia.
Require Import Verif.M_Base Verif.M_Params Verif.M_Buffer Verif.M_View Verif.M_Archive Verif.S_Params Verif.S_Buffer Verif.P_Base Verif.P_Archive.
Require Import Verif.P_Api2 Verif.M_Python Verif.S_Python Verif.P_Python Verif.P_Python3.
Import ListNotations.
Open Scope Z_scope.

(** ** C72: a contiguous float32 array of the buffer's shape.  decompose takes
    its items as the signal, and compose returns arrays of the scaled shape
    with the items of the composed signal. *)
Theorem C72_cycle (T : Type) (A : Arith T) load cast p (b : buffer T) a den c h w :
  accepted p -> reachable p b -> keeps_shape den ->
  shape p = [Z.of_nat w; Z.of_nat h] -> signum p = Z.of_nat c -> (1 <= c)%nat ->
  c_contiguous a c h w -> nd_writable a = true ->
  exists data b', signals_of load a c h w data /\
    py_decompose load cast b a den = Ok (true, b') /\ decompose b data den = Ok (true, b') /\
    forall sf, 0 <= sf <= steps p ->
      exists res out, compose b' sf = Ok (true, res) /\ py_compose b' sf = Ok (Some out) /\
        array_of res c (h / 2 ^ Z.to_nat sf) (w / 2 ^ Z.to_nat sf) out.
Proof. exact (py_cycle load cast p b a den c h w). Qed.
Print Assumptions C72_cycle.

(** without decomposition steps the array comes back *)
Theorem C72_pass_through (T : Type) (A : Arith T) load cast p (b : buffer T) a den c h w :
  accepted p -> steps p = 0 -> reachable p b -> keeps_shape den ->
  shape p = [Z.of_nat w; Z.of_nat h] -> signum p = Z.of_nat c -> (1 <= c)%nat ->
  c_contiguous a c h w -> nd_writable a = true ->
  exists b' out, py_decompose load cast b a den = Ok (true, b') /\ py_compose b' 0 = Ok (Some out) /\
    ashape out = [c; h; w] /\
    forall ch i j, (ch < c)%nat -> (i < h)%nat -> (j < w)%nat ->
      exists bs, item a [ch; i; j] = Ok bs /\ nth_error (aelts out) ((ch * h + i) * w + j) = Some (load bs).
Proof. exact (py_pass_through load cast p b a den c h w). Qed.
Print Assumptions C72_pass_through.

(** any array of another shape: an exception, and the buffer is as before *)
Theorem C72_wrong_shape (T : Type) (A : Arith T) load cast (b : buffer T) a den :
  length (shape (bpar b)) = 2%nat -> wrong_shape (bpar b) (signum (bpar b)) a ->
  py_decompose load cast b a den = Ok (false, b).
Proof. exact (decompose_wrong load cast b a den). Qed.
Print Assumptions C72_wrong_shape.
Theorem C72_wrong_shape_1d (T : Type) (A : Arith T) load cast (b : buffer T) a den n :
  shape (bpar b) = [n] -> (forall k, nd_shape a = [k] -> Z.of_nat k <> n) ->
  py_decompose load cast b a den = Ok (false, b).
Proof. exact (decompose1_wrong load cast b a den n). Qed.
Print Assumptions C72_wrong_shape_1d.

(** an array 1 x 2 x 3 of float32 with a gap before it *)
Definition arr0 : ndarray :=
  ND ([9; 9; 9; 9] ++ flat_map (le 4) [1; 2; 3; 4; 5; 6]) 4 [1; 2; 3]%nat [24; 12; 4] 4 true true.
Example C72_case : c_contiguous arr0 1 2 3 /\ accepted (Params [3; 2] 1 0 1) /\
  item arr0 [0; 1; 2]%nat = Ok (le 4 6).
Proof.
  split; [repeat split; cbn; lia|]. split; [|reflexivity].
  unfold accepted, params_rep, legal, u64, i32; cbn [shape signum steps wtype length].
  repeat split; auto; repeat constructor; lia.
Qed.
Example C72_wrong_case : wrong_shape (Params [2; 3] 1 0 1) 1 arr0.
Proof. intros c h w E (_ & P). cbn in E, P. injection E as <- <- <-. discriminate P. Qed.

(** ** C73: what a 2D buffer reads of any array is its memory in order,
    whatever its strides and dtype; so the items of an array that is not
    contiguous, or not float32, are not what is decomposed. *)
Theorem C73_memory_order (T : Type) (A : Arith T) load cast (b : buffer T) a den c h w :
  shape (bpar b) = [Z.of_nat w; Z.of_nat h] -> signum (bpar b) = Z.of_nat c -> nd_shape a = [c; h; w] ->
  nd_writable a = true -> 0 <= nd_off a -> nd_off a + 4 * Z.of_nat (c * h * w) <= Z.of_nat (length (nd_mem a)) ->
  exists data, py_decompose load cast b a den = decompose b data den /\ length data = c /\
    forall ch m i j, nth_error data ch = Some m -> (i < h)%nat -> (j < w)%nat ->
      mget m i j = Ok (load (firstn 4 (skipn (Z.to_nat (nd_off a) + 4 * ((ch * h + i) * w + j)) (nd_mem a)))).
Proof.
  intros Ep Ec Es Ew H0 Hm. pose proof (signals_mem load a c h w Es H0 Hm) as E.
  eexists. split; [apply (py_decompose2_eq load cast b a den c h w); eauto|].
  split; [rewrite map_length, seq_length; reflexivity|].
  intros ch m i j Hch Hi Hj.
  assert (L : (ch < c)%nat).
  { assert (X : nth_error (map (fun ch => mk h w (fun i j => float_at load a (h * w * ch + w * i + j)%nat)) (seq 0 c)) ch <> None) by congruence.
    apply nth_error_Some in X. rewrite map_length, seq_length in X. exact X. }
  rewrite nth_error_map_seq in Hch by auto. injection Hch as <-.
  rewrite mget_mk by auto. unfold float_at. do 5 f_equal. lia.
Qed.
Print Assumptions C73_memory_order.

(** a float32 array seen through a transposition: another signal is stored *)
Definition arr_t : ndarray := ND (flat_map (le 4) [1; 2; 3; 4]) 0 [1; 2; 2]%nat [16; 4; 8] 4 true true.
Theorem C73_strides_refuted :
  exists (b b' : buffer Z) a out bs,
    new_buffer (Params [2; 2] 1 0 1) = Ok b /\ nd_f32 a = true /\ nd_writable a = true /\ nd_shape a = [1; 2; 2]%nat /\
    (forall ch i j, (ch < 1)%nat -> (i < 2)%nat -> (j < 2)%nat -> exists bs, item a [ch; i; j] = Ok bs) /\
    py_decompose (A := Z_arith) of_le (fun _ => None) b a null_denoiser = Ok (true, b') /\
    py_compose (A := Z_arith) b' 0 = Ok (Some out) /\
    item a [0; 0; 1]%nat = Ok bs /\ nth_error (aelts out) 1 <> Some (of_le bs).
Proof.
  do 2 eexists. exists arr_t. do 2 eexists.
  split; [reflexivity|]. split; [reflexivity|]. split; [reflexivity|]. split; [reflexivity|].
  split.
  { intros ch i j H1 H2 H3. destruct ch; [|lia]. destruct i as [|[|]], j as [|[|]]; try lia; eexists; reflexivity. }
  split; [vm_compute; reflexivity|]. split; [vm_compute; reflexivity|]. split; [vm_compute; reflexivity|].
  vm_compute. discriminate.
Qed.
Print Assumptions C73_strides_refuted.

(** an array of bytes of the right shape: reads behind its end *)
Theorem C73_dtype_refuted :
  exists (b : buffer Z) a, new_buffer (Params [2; 2] 1 0 1) = Ok b /\ nd_item a = 1%nat /\ nd_writable a = true /\
    nd_shape a = [1; 2; 2]%nat /\
    (forall ch i j, (ch < 1)%nat -> (i < 2)%nat -> (j < 2)%nat -> exists x, item a [ch; i; j] = Ok [x]) /\
    py_decompose (A := Z_arith) of_le (fun _ => None) b a null_denoiser = UB.
Proof.
  eexists. exists (ND [1; 2; 3; 4] 0 [1; 2; 2]%nat [4; 2; 1] 1 false true).
  split; [reflexivity|]. split; [reflexivity|]. split; [reflexivity|]. split; [reflexivity|]. split.
  - intros ch i j H1 H2 H3. destruct ch; [|lia]. destruct i as [|[|]], j as [|[|]]; try lia; eexists; reflexivity.
  - vm_compute. reflexivity.
Qed.
Print Assumptions C73_dtype_refuted.

(** a read-only array is refused although it is only read *)
Theorem C73_read_only (T : Type) (A : Arith T) load cast (b : buffer T) a den :
  length (shape (bpar b)) = 2%nat -> nd_writable a = false -> py_decompose load cast b a den = Ok (false, b).
Proof. exact (decompose_read_only load cast b a den). Qed.
Print Assumptions C73_read_only.

(** ** C74: 1D, any strides, any dtype whose items can be cast *)
Theorem C74_cycle (T : Type) (A : Arith T) load cast p (b : buffer T) a den n l :
  accepted p -> reachable p b -> keeps_shape den -> shape p = [Z.of_nat n] -> signum p = 1 ->
  nd_shape a = [n] -> values_of load cast a n l ->
  exists b', py_decompose load cast b a den = Ok (true, b') /\ decompose b [mcolvec l] den = Ok (true, b') /\
    forall sf, 0 <= sf <= steps p ->
      exists m, compose b' sf = Ok (true, [m]) /\ sized (n / 2 ^ Z.to_nat sf) 1 m /\
        py_compose b' sf = Ok (Some (Arr [(n / 2 ^ Z.to_nat sf)%nat] (elts m))).
Proof. exact (py_cycle1 load cast p b a den n l). Qed.
Print Assumptions C74_cycle.
(** every second float of a longer array, backwards *)
Example C74_case : values_of of_le (fun _ => None)
  (ND (flat_map (le 4) [1; 2; 3; 4]) 12 [2]%nat [-8] 4 true true) 2 [4; 2] /\ accepted (Params [2] 1 1 1).
Proof.
  split.
  - split; [reflexivity|]. intros [|[|i]] x E; cbn in E; try discriminate; [| |destruct i; discriminate].
    all: injection E as <-; eexists; split; reflexivity.
  - unfold accepted, params_rep, legal, u64, i32; cbn [shape signum steps wtype length].
    repeat split; auto; repeat constructor; lia.
Qed.

(** ** C75: composing a 2D buffer without channels is undefined behaviour *)
Theorem C75_no_channels_refuted (T : Type) (A : Arith T) p (b : buffer T) sf :
  accepted p -> length (shape p) = 2%nat -> signum p = 0 -> new_buffer p = Ok b -> 0 <= sf <= steps p ->
  py_compose b sf = UB.
Proof. exact (py_no_channels p b sf). Qed.
Print Assumptions C75_no_channels_refuted.
Example C75_case : accepted (Params [4; 4] 0 1 1).
Proof.
  unfold accepted, params_rep, legal, u64, i32; cbn [shape signum steps wtype length].
  repeat split; auto; repeat constructor; lia.
Qed.

(** ** C76: buffer[start:stop] is the view of the channels Python's rules
    select *)
Theorem C76_slice p start stop step :
  0 <= signum p < 2 ^ 31 -> step = None \/ step = Some 1 ->
  ((exists i, selects (signum p) start stop i) ->
     exists s c, py_getitem p start stop step = Some (s, c) /\ 1 <= c /\
       (forall i, selects (signum p) start stop i <-> s <= i < s + c)) /\
  ((forall i, ~ selects (signum p) start stop i) ->
     py_getitem p start stop step = None \/
     exists s c, py_getitem p start stop step = Some (s, c) /\ c < 0 /\ 0 <= s + c).
Proof. exact (slices_select p start stop step). Qed.
Print Assumptions C76_slice.
Theorem C76_other_steps p start stop k : 0 <= signum p < 2 ^ 31 -> k <> 1 -> py_getitem p start stop (Some k) = None.
Proof. exact (other_steps p start stop k). Qed.
Print Assumptions C76_other_steps.
Example C76_case : py_getitem (Params [8; 8] 5 1 1) (Some (-3)) None None = Some (2, 3) /\
  py_getitem (Params [8; 8] 5 1 1) None (Some 9) None = Some (0, 5) /\
  py_getitem (Params [8; 8] 5 1 1) (Some 7) (Some 9) None = None.
Proof. repeat split; reflexivity. Qed.

(** not every empty slice is refused: buffer[2:1] gives a view, on which
    decompose is refused and compose ends in a C++ exception *)
Theorem C76_empty_refuted :
  exists p s c, 0 <= signum p < 2 ^ 31 /\ (forall i, ~ selects (signum p) (Some 2) (Some 1) i) /\
    py_getitem p (Some 2) (Some 1) None = Some (s, c) /\ c < 0.
Proof.
  exists (Params [8; 8] 5 1 1), 2, (-1). split; [cbn; lia|]. split; [|split; [reflexivity|lia]].
  intros i (_ & H1 & H2). cbn in H1, H2. lia.
Qed.
Print Assumptions C76_empty_refuted.
Theorem C76_empty_view (T : Type) (A : Arith T) load (b : buffer T) s c sf a den :
  length (shape (bpar b)) = 2%nat -> 0 <= signum (bpar b) < 2 ^ 31 ->
  c < 0 -> 0 <= s < 2 ^ 31 -> 0 <= s + c -> s <= signum (bpar b) -> 0 <= sf ->
  py_view_compose b (s, c) sf = Throw /\ py_view_decompose load b (s, c) a den = Ok (false, b).
Proof. exact (reversed_slice load b s c sf a den). Qed.
Print Assumptions C76_empty_view.

(** decompose on a slice is the decomposition of the C++ view (C16) with the
    items of the array; other shapes are refused *)
Theorem C76_view_decompose (T : Type) (A : Arith T) load (b : buffer T) s a den c h w :
  shape (bpar b) = [Z.of_nat w; Z.of_nat h] -> c_contiguous a c h w -> nd_writable a = true ->
  exists data, signals_of load a c h w data /\
    py_view_decompose load b (s, Z.of_nat c) a den = view_decompose (View s (Z.of_nat c) true) b data den.
Proof.
  intros Ep HC Hw. destruct (signals_contiguous load a c h w HC) as (data & E & HS). exists data. split; auto.
  destruct HC as (_ & _ & Es & _). exact (py_view_decompose_eq load b s a den c h w data Ep Es Hw E).
Qed.
Print Assumptions C76_view_decompose.
Theorem C76_view_wrong_shape (T : Type) (A : Arith T) load (b : buffer T) s c a den :
  length (shape (bpar b)) = 2%nat -> wrong_shape (bpar b) c a ->
  py_view_decompose load b (s, c) a den = Ok (false, b).
Proof. exact (view_wrong load b s c a den). Qed.
Print Assumptions C76_view_wrong_shape.
(** compose on a slice is the array of the selected channels of the composed
    buffer *)
Theorem C76_view_compose (T : Type) (A : Arith T) (b : buffer T) s sf r res c h w :
  length (shape (bpar b)) = 2%nat -> (1 <= c)%nat -> in_range (View s (Z.of_nat c) true) (bpar b) ->
  compose b sf = Ok (r, res) -> Z.of_nat (length res) = signum (bpar b) -> Forall (sized h w) res ->
  exists out, py_view_compose b (s, Z.of_nat c) sf = Ok (Some out) /\
    array_of (firstn c (skipn (Z.to_nat s) res)) c h w out.
Proof. exact (py_view_compose_eq b s sf r res c h w). Qed.
Print Assumptions C76_view_compose.
(** both are refused on a slice of a buffer that is not two-dimensional *)
Theorem C76_view_not_2d (T : Type) (A : Arith T) load (b : buffer T) v sf a den :
  length (shape (bpar b)) <> 2%nat ->
  py_view_compose b v sf = Ok None /\ py_view_decompose load b v a den = Ok (false, b).
Proof. exact (view_not_2d load b v sf a den). Qed.
Print Assumptions C76_view_not_2d.

(** ** C77: buffer.decompositions given to the constructor makes the same
    buffer; [store] and [load] are the bytes of a float *)
Theorem C77_subbands (T : Type) load store p (b : buffer T) :
  (forall x, length (store x) = 4%nat) -> (forall x, load (store x) = x) ->
  accepted p -> bpar b = p -> Z.of_nat (length (bdec b)) = signum p -> 1 <= signum p ->
  Forall (fun ch => length ch = (nsteps p * bands p + 1)%nat /\ Forall mwf ch) (bdec b) ->
  exists arrays, decompositions_to_py (bdec b) = Ok arrays /\
    py_construct load p (map (map (as_input store)) arrays) = Ok b.
Proof. exact (fun H1 H2 => construct_round_trip load store H1 H2 p b). Qed.
Print Assumptions C77_subbands.
Example C77_case : (forall x, length (put_word x) = 4%nat) /\ (forall x, mkword (of_le (put_word x)) = x).
Proof.
  split; intros x.
  - unfold put_word. apply le_length.
  - unfold put_word. destruct x as [z Hz].
    assert (B : 0 <= z < 2 ^ 32) by (apply andb_prop in Hz as (H1 & H2); apply Z.leb_le in H1; apply Z.ltb_lt in H2; auto).
    rewrite of_le_le; cbn [wbits]; [|lia].
    apply word_eq. cbn [wbits mkword]. apply Z.mod_small. lia.
Qed.

(** a subband given as a one-dimensional array: read behind the dimensions *)
Theorem C77_one_dimension_refuted (T : Type) load p n mem :
  @py_construct T load p [[ND mem 0 [n] [4] 4 true true]] = UB.
Proof. reflexivity. Qed.
Print Assumptions C77_one_dimension_refuted.
(** a transposed subband: other elements are stored *)
Theorem C77_strides_refuted :
  exists (b : buffer Z) a bs, nd_f32 a = true /\ nd_shape a = [2; 2]%nat /\
    py_construct of_le (Params [2; 2] 1 0 1) [[a]] = Ok b /\
    item a [0; 1]%nat = Ok bs /\ bdec b <> [] /\
    forall ch m, In ch (bdec b) -> In m ch -> mget m 0 1 <> Ok (of_le bs).
Proof.
  eexists. exists (ND (flat_map (le 4) [1; 2; 3; 4]) 0 [2; 2]%nat [4; 8] 4 true true). eexists.
  split; [reflexivity|]. split; [reflexivity|]. split; [vm_compute; reflexivity|]. split; [vm_compute; reflexivity|].
  split; [discriminate|]. intros ch m [<-|[]] [<-|[]]. vm_compute. discriminate.
Qed.
Print Assumptions C77_strides_refuted.

(** read-only subbands: an exception *)
Theorem C77_read_only (T : Type) load p (decs : list (list ndarray)) :
  (forall ch a, In ch decs -> In a ch -> exists h w, nd_shape a = [h; w] /\
     0 <= nd_off a /\ nd_off a + 4 * Z.of_nat (h * w) <= Z.of_nat (length (nd_mem a))) ->
  (exists ch a, In ch decs /\ In a ch /\ nd_writable a = false) ->
  @py_construct T load p decs = Throw.
Proof. exact (construct_read_only load p decs). Qed.
Print Assumptions C77_read_only.
Example C77_read_only_case : let a := ND (flat_map (le 4) [1; 2; 3; 4]) 0 [2; 2]%nat [8; 4] 4 true in
  py_construct of_le (Params [2; 2] 1 0 1) [[a false]] = Throw /\
  exists b, py_construct of_le (Params [2; 2] 1 0 1) [[a true]] = Ok b.
Proof. split; [reflexivity|]. eexists. vm_compute. reflexivity. Qed.

(** ** C78: a codec's encode does not check the number of dimensions: a grey
    image [h, w] is undefined behaviour *)
Theorem C78_two_dimensions_refuted (T : Type) load (enc : list (mat T) -> res (option (list Z))) a h w :
  nd_shape a = [h; w] -> py_encode load enc a = UB.
Proof. intros E. unfold py_encode. rewrite E. reflexivity. Qed.
Print Assumptions C78_two_dimensions_refuted.
Theorem C78_encode (T : Type) load (enc : list (mat T) -> res (option (list Z))) a c h w :
  c_contiguous a c h w -> nd_writable a = true ->
  exists data, signals_of load a c h w data /\ py_encode load enc a = enc data.
Proof.
  intros HC Hw. destruct (signals_contiguous load a c h w HC) as (data & E & HS). exists data. split; auto.
  unfold py_encode. destruct HC as (_ & _ & Es & _). rewrite Es. cbn [rd nth_error bind]. rewrite Hw. cbn [check bind].
  rewrite E. reflexivity.
Qed.
Print Assumptions C78_encode.

(** ** C106: decomposition_size(shape, steps) is the number of subbands of
    every channel of a buffer of that shape and those steps, and the number
    the constructor insists on *)
Theorem C106_buffer (T : Type) (A : Arith T) p (b : buffer T) : accepted p -> reachable p b ->
  Forall (fun ch => length ch = py_decomposition_size (shape p) (steps p)) (bdec b) /\
  forall arrays, decompositions_to_py (bdec b) = Ok arrays ->
    Forall (fun ch => length ch = py_decomposition_size (shape p) (steps p)) arrays.
Proof. exact (size_counts p b). Qed.
Print Assumptions C106_buffer.
Theorem C106_constructor (T : Type) load p decs (b : buffer T) : accepted p -> decs <> [] ->
  py_construct load p decs = Ok b ->
  Z.of_nat (length decs) = signum p /\ Forall (fun ch => length ch = py_decomposition_size (shape p) (steps p)) decs.
Proof. exact (size_required load p decs b). Qed.
Print Assumptions C106_constructor.
Example C106_case : py_decomposition_size [64; 48] 3 = 10%nat /\ py_decomposition_size [64] 3 = 4%nat.
Proof. split; reflexivity. Qed.
