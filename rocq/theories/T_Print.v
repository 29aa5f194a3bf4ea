(** * T_Print: properties C101 (repr in Python) and C102 (operator<<) *)
Require Import List ZArith String Lia.
Require Import Verif.M_Base Verif.M_Params Verif.M_Buffer Verif.M_Print Verif.S_Print Verif.P_Print.
Import ListNotations.
Open Scope string_scope.

(** C101: parameters, and buffers as far as their parameters go, with the same
    repr are the same; the text can be told from what follows. *)
Theorem C101_parameters p q s t :
  params_rep p -> params_rep q -> (0 <= wtype p <= 5)%Z -> (0 <= wtype q <= 5)%Z ->
  repr_parameters p ++ s = repr_parameters q ++ t -> p = q.
Proof. exact (repr_inj "WaveletParameters" p q s t). Qed.
Print Assumptions C101_parameters.
Theorem C101_buffers (T : Type) (a b : buffer T) s t :
  params_rep (bpar a) -> params_rep (bpar b) -> (0 <= wtype (bpar a) <= 5)%Z -> (0 <= wtype (bpar b) <= 5)%Z ->
  repr_buffer a ++ s = repr_buffer b ++ t -> bpar a = bpar b.
Proof. exact (repr_inj "WaveletBuffer" (bpar a) (bpar b) s t). Qed.
Print Assumptions C101_buffers.
(** each field stands behind its name *)
Theorem C101_fields p : params_rep p ->
  (exists n, numeral n (signum p) /\ contains ("signal_number=" ++ n ++ ",") (repr_parameters p)) /\
  (exists ns, Forall2 numeral ns (shape p) /\ contains ("signal_shape=(" ++ concat "x" ns ++ ")") (repr_parameters p)) /\
  (exists n, numeral n (steps p) /\ contains ("decomposition_steps=" ++ n ++ ",") (repr_parameters p)) /\
  (forall t, nth_error type_names (Z.to_nat (wtype p)) = Some t -> (0 <= wtype p)%Z ->
     contains ("wavelet_type=WaveletType." ++ t ++ ">") (repr_parameters p)) /\
  exists rest, repr_parameters p = "WaveletParameters" ++ "<" ++ rest.
Proof. exact (repr_fields "WaveletParameters" p). Qed.
Print Assumptions C101_fields.
Theorem C101_same_fields (T : Type) (b : buffer T) : exists rest,
  repr_parameters (bpar b) = "WaveletParameters<" ++ rest /\ repr_buffer b = "WaveletBuffer<" ++ rest.
Proof. eexists. split; reflexivity. Qed.
Print Assumptions C101_same_fields.
(** other wavelet types are all printed as "Unknown" *)
Theorem C101_other_types p : (wtype p < 0 \/ 5 < wtype p)%Z -> contains "wavelet_type=Unknown>" (repr_parameters p).
Proof.
  intro H. exists ("WaveletParameters" ++ "<" ++ "signal_number=" ++ show_size (signum p) ++ ", signal_shape=(" ++ shape_repr true (shape p)
        ++ "), decomposition_steps=" ++ show_size (steps p) ++ ", "), "".
  assert (E : type_repr (wtype p) = "Unknown").
  { unfold type_repr. repeat (match goal with |- context [(wtype p =? ?k)%Z] => destruct (Z.eqb_spec (wtype p) k); [lia|] end). reflexivity. }
  unfold repr_parameters, params_repr. rewrite E, !app_assoc_s. reflexivity.
Qed.
Print Assumptions C101_other_types.
Theorem C101_all_types_refuted : exists p q, params_rep p /\ params_rep q /\ p <> q /\
  repr_parameters p = repr_parameters q.
Proof.
  exists (Params [640; 480]%Z 3 2 6), (Params [640; 480]%Z 3 2 7).
  unfold params_rep, u64, i32; cbn [shape signum steps wtype List.length].
  split; [|split; [|split; [discriminate|reflexivity]]]; repeat split; auto; repeat constructor; lia.
Qed.
Print Assumptions C101_all_types_refuted.
Example C101_numerals : numeral "18446744073709551615" (2 ^ 64 - 1)%Z /\ ~ numeral "007" 7.
Proof.
  split.
  - split; [discriminate|]. split; [reflexivity|]. split; [discriminate|]. discriminate.
  - intros (_ & _ & H & _). apply H; [discriminate|reflexivity].
Qed.
Example C101_case : repr_parameters (Params [640; 480]%Z 3 2 4) =
  "WaveletParameters<signal_number=3, signal_shape=(640x480), decomposition_steps=2, wavelet_type=WaveletType.DB4>".
Proof. reflexivity. Qed.

(** C102: what operator<< writes to the stream determines the parameters, if
    this holds of Blaze's row vectors ([row]). *)
Theorem C102_parameters row p q s t : readable (Forall u64) row -> params_rep p -> params_rep q ->
  print_params row p ++ s = print_params row q ++ t -> p = q.
Proof. exact (print_params_inj row p q s t). Qed.
Print Assumptions C102_parameters.
Theorem C102_buffers (T : Type) row (mtx : mat T -> string) (a b : buffer T) :
  readable (Forall u64) row -> params_rep (bpar a) -> params_rep (bpar b) ->
  fst (print_buffer row mtx a) = fst (print_buffer row mtx b) -> bpar a = bpar b.
Proof. exact (print_buffer_params row mtx a b). Qed.
Print Assumptions C102_buffers.
(** each field stands behind its name *)
Theorem C102_fields row p : params_rep p ->
  contains ("signal_shape: " ++ row (shape p)) (print_params row p) /\
  (exists n, numeral n (signum p) /\ contains ("signal_number: " ++ n ++ newline) (print_params row p)) /\
  (exists n, numeral n (steps p) /\ contains ("decomposition_steps: " ++ n ++ newline) (print_params row p)) /\
  (exists n, numeral n (Z.abs (wtype p)) /\
     contains ("wavelet_type: " ++ (if (wtype p <? 0)%Z then "-" else "") ++ n ++ newline) (print_params row p)).
Proof. exact (print_fields row p). Qed.
Print Assumptions C102_fields.
Example C102_case : readable (Forall u64) row_print /\
  row_print [640; 480]%Z = "( 640 480 )" ++ newline.
Proof. split; [exact row_print_readable|reflexivity]. Qed.

(** "Printing a buffer to a stream writes to this stream only" is wrong: the
    lines that number the channels go to std::cout. *)
Theorem C102_own_stream_refuted (T : Type) row (mtx : mat T -> string) : exists b : buffer T,
  snd (print_buffer row mtx b) = "  channel: 0" ++ newline ++ "  channel: 1" ++ newline.
Proof. exists (Buffer (Params [8]%Z 2 0 0) [[mempty]; [mempty]]). reflexivity. Qed.
Print Assumptions C102_own_stream_refuted.
(** and nothing else goes there: one line for each channel *)
Theorem C102_cout (T : Type) row (mtx : mat T -> string) (b : buffer T) :
  (bdec b = [] -> snd (print_buffer row mtx b) = "") /\
  forall ch p, let b' := Buffer p (bdec b ++ [ch])%list in
    snd (print_buffer row mtx b') =
    snd (print_buffer row mtx b) ++ "  channel: " ++ show_size (Z.of_nat (List.length (bdec b))) ++ newline.
Proof. exact (cout_lines row mtx b). Qed.
Print Assumptions C102_cout.
