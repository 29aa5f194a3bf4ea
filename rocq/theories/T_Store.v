(** * T_Store: property C118: files of images, over any history of calls and
    kills.  [cd] is any float codec, [legacy] any reader of old blobs, [A] any
    arithmetic: Save and Load only copy. *)
Require Import List Bool Arith ZArith Lia.
Require Import Verif.M_Base Verif.M_Params Verif.M_Buffer Verif.M_View Verif.M_Denoise Verif.M_Archive Verif.M_Serializer
  Verif.M_Image Verif.M_Store Verif.S_Params Verif.S_Buffer Verif.S_Serializer Verif.S_Image Verif.S_Store
  Verif.P_Blob Verif.P_Store.
Import ListNotations.
Open Scope nat_scope.

Section Store.
Implicit Types (cd : codec) (legacy : buffer word -> list Z -> res (option (buffer word))).

(** ** After any history Load gives the image of the last Save to that file
    if all of it reached the file, a null pointer if only a part did that has
    the whole header, and is undefined if the header is torn. *)
Theorem C118_load (A : Arith word) cd legacy arch m0 h m l e q :
  initial arch m0 -> Forall (proper arch) h -> run cd legacy m0 h = Ok (m, l) -> arch q -> can_open e = true ->
  (Forall (fun o => ~ opens q o) h /\ load_file cd legacy e (disk m) q = Ok None) \/
  exists b n data, last_saved cd legacy m0 h q b n /\ serialize cd b 0 = Ok (Some data) /\
    ((length data <= n /\ load_file cd legacy e (disk m) q = Ok (Some b)) \/
     (header_length (bpar b) <= n < length data /\ load_file cd legacy e (disk m) q = Ok None) \/
     (n < header_length (bpar b) /\ n < length data /\ load_file cd legacy e (disk m) q = UB)).
Proof. exact (load_story cd legacy arch m0 h m l e q). Qed.
Print Assumptions C118_load.

(** ** The same as the call of Load at the end of a history: what it answers,
    and the image it makes *)
Theorem C118_load_call (A : Arith word) cd legacy arch m0 h m l e q :
  initial arch m0 -> Forall (proper arch) h -> run cd legacy m0 h = Ok (m, l) -> arch q -> can_open e = true ->
  (Forall (fun o => ~ opens q o) h /\ run cd legacy m0 (h ++ [MLoad e q]) = Ok (m, l ++ [Loaded false])) \/
  exists b n data, last_saved cd legacy m0 h q b n /\ serialize cd b 0 = Ok (Some data) /\
    ((length data <= n /\ run cd legacy m0 (h ++ [MLoad e q]) = Ok (Machine (disk m) (live m ++ [Some b]), l ++ [Loaded true])) \/
     (header_length (bpar b) <= n < length data /\ run cd legacy m0 (h ++ [MLoad e q]) = Ok (m, l ++ [Loaded false])) \/
     (n < header_length (bpar b) /\ n < length data /\ run cd legacy m0 (h ++ [MLoad e q]) = UB)).
Proof.
  intros I HP E Hq He.
  assert (R : run cd legacy m0 (h ++ [MLoad e q]) =
    let* r := load_file cd legacy e (disk m) q in
    Ok (match r with Some b => (Machine (disk m) (live m ++ [Some b]), l ++ [Loaded true]) | None => (m, l ++ [Loaded false]) end)).
  { clear -E. revert m0 l E. induction h as [|o h IH]; intros m0 l E; cbn in E |- *.
    - inversion E; subst. destruct (load_file cd legacy e (disk m) q) as [[b|]| |]; reflexivity.
    - destruct (step cd legacy m0 o) as [[m1 a]| |]; try discriminate. cbn in E |- *.
      destruct (run cd legacy m1 h) as [[m2 l2]| |] eqn:E2; try discriminate. cbn in E. inversion E; subst.
      rewrite (IH m1 l2 E2). destruct (load_file cd legacy e (disk m) q) as [[b|]| |]; reflexivity. }
  rewrite R. destruct (load_story cd legacy arch m0 h m l e q I HP E Hq He) as [(H1 & H)|(b & n & data & H1 & H2 & [(H3 & H)|[(H3 & H)|(H3 & H4 & H)]])];
    rewrite H; cbn [bind]; [left; auto|right..]; exists b, n, data; (split; [exact H1|]); (split; [exact H2|]); auto.
Qed.
Print Assumptions C118_load_call.

(** ** A new image is there and is the buffer of the constructor *)
Theorem C118_new_image (A : Arith word) cd legacy m0 h m l p :
  run cd legacy m0 h = Ok (m, l) -> sensible p ->
  exists b, new_buffer p = Ok b /\ made b /\
    run cd legacy m0 (h ++ [MNew p]) = Ok (Machine (disk m) (live m ++ [Some b]), l ++ [Done]).
Proof.
  intros E HS. pose proof HS as (HA & _).
  assert (HB : exists b : buffer word, new_buffer p = Ok b) by (eexists; apply P_Params.new_buffer_legal; [apply HA| |apply HA]; unfold accepted in HA; lia).
  destruct HB as (b & Eb). exists b. split; [exact Eb|]. split; [exists p; split; [exact HS|apply reach_new; exact Eb]|].
  rewrite run_app, E. cbn [bind fst snd run step]. rewrite Eb. reflexivity.
Qed.
Print Assumptions C118_new_image.

(** ** What was saved stays saved: whatever happens to the image, to other
    files and to the process afterwards *)
Theorem C118_durable (A : Arith word) cd legacy arch m0 h1 e i q h2 m1 l1 m l b data e' :
  initial arch m0 -> Forall (proper arch) (h1 ++ MSave e i q :: h2) ->
  run cd legacy m0 h1 = Ok (m1, l1) -> nth_error (live m1) i = Some (Some b) -> can_open e = true ->
  serialize cd b 0 = Ok (Some data) -> length data <= reaches e ->
  Forall (fun o => ~ opens q o) h2 -> run cd legacy m0 (h1 ++ MSave e i q :: h2) = Ok (m, l) -> can_open e' = true ->
  load_file cd legacy e' (disk m) q = Ok (Some b).
Proof. exact (durable cd legacy arch m0 h1 e i q h2 m1 l1 m l b data e'). Qed.
Print Assumptions C118_durable.

(** ** Load never gives anything else: no older image of the same file, no
    mixture, no image that was never saved there *)
Theorem C118_no_other (A : Arith word) cd legacy arch m0 h m l e q b :
  initial arch m0 -> Forall (proper arch) h -> run cd legacy m0 h = Ok (m, l) -> arch q ->
  load_file cd legacy e (disk m) q = Ok (Some b) ->
  exists n data, last_saved cd legacy m0 h q b n /\ serialize cd b 0 = Ok (Some data) /\ length data <= n.
Proof.
  intros I HP E Hq El.
  destruct (can_open e) eqn:He; [|unfold load_file, fread in El; rewrite He in El; discriminate].
  destruct (load_story cd legacy arch m0 h m l e q I HP E Hq He) as [(_ & H)|(b' & n & data & H1 & H2 & [(H3 & H4)|[(_ & H)|(_ & _ & H)]])];
    try congruence.
  assert (b' = b) by congruence. subst b'. exists n, data. auto.
Qed.
Print Assumptions C118_no_other.

(** [last_saved] names one image *)
Theorem C118_last_unique (A : Arith word) cd legacy m0 h1 o h2 e i q m1 l1 b :
  o = MSave e i q \/ o = MKillSave e i q -> can_open e = true ->
  run cd legacy m0 h1 = Ok (m1, l1) -> nth_error (live m1) i = Some (Some b) -> Forall (fun o' => ~ opens q o') h2 ->
  forall b' n', last_saved cd legacy m0 (h1 ++ o :: h2) q b' n' -> b' = b /\ n' = reaches e.
Proof. exact (last_saved_at cd legacy m0 h1 o h2 e i q m1 l1 b). Qed.
Print Assumptions C118_last_unique.

(** ** A file no call opened for writing is as it was, in every history *)
Theorem C118_other_files (A : Arith word) cd legacy m0 h m l q :
  run cd legacy m0 h = Ok (m, l) -> Forall (fun o => ~ opens q o) h -> disk m q = disk m0 q.
Proof.
  revert m0 l. induction h as [|o h IH]; intros m0 l E HF; cbn in E; [congruence|].
  inversion_clear HF as [|? ? Ho HF']. destruct (step cd legacy m0 o) as [[m1 a]| |] eqn:E1; try discriminate. cbn in E.
  destruct (run cd legacy m1 h) as [[m2 l2]| |] eqn:E2; try discriminate. cbn in E. injection E as <- _.
  rewrite (IH m1 l2 E2 HF'). apply (step_disk cd legacy m0 o m1 a q E1 Ho).
Qed.
Print Assumptions C118_other_files.

(** the codecs of the library deliver proper matrices *)
Theorem C118_codecs lib of_px f enc n :
  delivers (ImageCodec word (fun data => rgb_decode lib of_px data [] 0) enc n) /\
  delivers (ImageCodec word (fun data => gray_decode lib of_px data [] 0) enc n) /\
  delivers (ImageCodec word (fun data => hsl_decode lib of_px f data [] 0) enc n).
Proof. split; [apply rgb_delivers|]. split; [apply gray_delivers|apply hsl_delivers]. Qed.
Print Assumptions C118_codecs.

(** ** Examples *)
Local Existing Instance word_arith.
Definition C118_codec : image_codec word := ImageCodec word
  (fun data => Ok (if length data =? 4 then (true, [Mat 2 2 (map mkword data)]) else (false, []))) (fun _ => Ok (Some [7; 7]%Z)) 1.
Definition C118_null : denoiser word := null_denoiser.
Definition C118_p : params := Params [2; 2]%Z 1 0 1.
Definition C118_arch (q : path) : Prop := q <> [3%Z].
Definition C118_no_legacy : buffer word -> list Z -> res (option (buffer word)) := fun _ _ => Ok None.
Definition C118_m0 : machine := Machine (fun _ => None) [].
Definition C118_all := Env true 1000.
(** an image is made and saved to file 1, changed and saved to file 2, the
    process is killed while it overwrites file 2, having exported to file 3 *)
Definition C118_h1 : list call :=
  [MNew C118_p; MImportString 0 [1; 2; 3; 4]%Z C118_null C118_codec 0].
Definition C118_h2 : list call :=
  [MImportString 0 [5; 6; 7; 8]%Z C118_null C118_codec 0; MSave C118_all 0 [2%Z]; MExport C118_all 0 [3%Z] C118_codec 0;
   MKillSave (Env true 60) 0 [2%Z]; MLoad C118_all [1%Z]].
Definition C118_h : list call := C118_h1 ++ MSave C118_all 0 [1%Z] :: C118_h2.
Lemma C118_sensible : sensible C118_p.
Proof.
  split; [|split].
  - unfold C118_p, accepted, params_rep, legal, u64, i32; cbn [shape signum steps wtype length].
    repeat split; auto; try lia; repeat constructor; lia.
  - repeat constructor; lia.
  - vm_compute. reflexivity.
Qed.
Lemma C118_delivers : delivers C118_codec.
Proof.
  intros data im E. cbn in E. destruct (Nat.eqb_spec (length data) 4) as [H|H]; [|discriminate]. injection E as <-.
  repeat constructor. unfold mwf. cbn [elts rows cols]. rewrite map_length. exact H.
Qed.
Example C118_proper : Forall (proper C118_arch) C118_h.
Proof.
  assert (HI : keeps_shape C118_null /\ delivers C118_codec) by (split; [split; [reflexivity|intros; split; auto]|exact C118_delivers]).
  unfold C118_h, C118_h1, C118_h2. cbn [app].
  repeat (apply Forall_cons; [cbn [proper]; try exact HI; try exact C118_sensible; try discriminate; try (intro H; apply H; reflexivity)|]).
  constructor.
Qed.
(** (a machine cannot be printed, the disk is a function) *)
Definition C118_look (q : path) (r : res (machine * list answer))
  : option (list answer * list (option (buffer word)) * option (list Z) * res (option (buffer word))) :=
  match r with
  | Ok (m, l) => Some (l, live m, disk m [3%Z], load_file plain_codec C118_no_legacy C118_all (disk m) q)
  | _ => None
  end.
Lemma C118_seen q r l v d x : C118_look q r = Some (l, v, d, x) ->
  exists m, r = Ok (m, l) /\ live m = v /\ disk m [3%Z] = d /\ load_file plain_codec C118_no_legacy C118_all (disk m) q = x.
Proof. destruct r as [[m l0]| |]; try discriminate. intros [= <- <- <- <-]. exists m. auto. Qed.
Example C118_case : initial C118_arch C118_m0 /\ C118_arch [1%Z] /\ C118_arch [2%Z] /\ ~ C118_arch [3%Z] /\
  exists m, run plain_codec C118_no_legacy C118_m0 C118_h = Ok (m, [Done; Status kOk; Status kOk; Status kOk; Status kOk; Status kOk; Killed; Loaded true]) /\
    nth_error (live m) 1 = Some (Some (Buffer C118_p [[Mat 2 2 (map mkword [1; 2; 3; 4]%Z)]])) /\
    nth_error (live m) 0 = Some None /\ disk m [3%Z] = Some [7; 7]%Z /\
    load_file plain_codec C118_no_legacy C118_all (disk m) [2%Z] = Ok None.
Proof.
  split; [split; [reflexivity|intros q _; reflexivity]|].
  split; [discriminate|]. split; [discriminate|]. split; [intro H; apply H; reflexivity|].
  assert (E : C118_look [2%Z] (run plain_codec C118_no_legacy C118_m0 C118_h)
    = Some ([Done; Status kOk; Status kOk; Status kOk; Status kOk; Status kOk; Killed; Loaded true],
        [None; Some (Buffer C118_p [[Mat 2 2 (map mkword [1; 2; 3; 4]%Z)]])], Some [7; 7]%Z, Ok None)) by (vm_compute; reflexivity).
  apply C118_seen in E as (m & E1 & E2 & E3 & E4). exists m. rewrite E2. auto.
Qed.

(** ** 'Save replaces the old image by the new one or leaves the old one' is
    false: after a kill the file may hold neither, and loading it may even be
    undefined *)
Theorem C118_atomic_refuted : exists cd legacy arch m0 h e i q e' m l m' l',
  initial arch m0 /\ Forall (proper arch) (h ++ [MKillSave e i q]) /\ arch q /\
  run cd legacy m0 h = Ok (m, l) /\ (exists b, load_file cd legacy e' (disk m) q = Ok (Some b)) /\
  run cd legacy m0 (h ++ [MKillSave e i q]) = Ok (m', l') /\ load_file cd legacy e' (disk m') q = Ok None.
Proof.
  exists plain_codec, C118_no_legacy, C118_arch, C118_m0, (C118_h1 ++ [MSave C118_all 0 [1%Z]]), (Env true 60), 0, [1%Z], C118_all.
  assert (E : exists b l v, C118_look [1%Z] (run plain_codec C118_no_legacy C118_m0 (C118_h1 ++ [MSave C118_all 0 [1%Z]]))
    = Some (l, v, None, Ok (Some b))) by (do 3 eexists; vm_compute; reflexivity).
  destruct E as (b & l & v & E). apply C118_seen in E as (m & E1 & _ & _ & E2).
  assert (E : exists l v, C118_look [1%Z] (run plain_codec C118_no_legacy C118_m0 ((C118_h1 ++ [MSave C118_all 0 [1%Z]]) ++ [MKillSave (Env true 60) 0 [1%Z]]))
    = Some (l, v, None, Ok None)) by (do 2 eexists; vm_compute; reflexivity).
  destruct E as (l' & v' & E). apply C118_seen in E as (m' & E3 & _ & _ & E4).
  exists m, l, m', l'. split; [apply C118_case|]. split.
  { assert (HP := C118_proper). unfold C118_h in HP. apply Forall_app in HP as (HP1 & HP2).
    apply Forall_app. split; [apply Forall_app; split; [exact HP1|]|]; (constructor; [discriminate|constructor]). }
  split; [discriminate|]. split; [exact E1|]. split; [exists b; exact E2|]. split; [exact E3|exact E4].
Qed.
Print Assumptions C118_atomic_refuted.
End Store.
