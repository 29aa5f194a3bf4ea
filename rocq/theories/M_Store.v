(** * M_Store: programs that keep WaveletImages in files, and get killed.

    The machine is the disk and the WaveletImage objects of the running
    process, numbered in the order of their creation.  Killing the process
    ends all objects and leaves the disk as it is; a program started later
    continues on the same disk. *)
Require Import List Bool Arith ZArith.
Require Import Verif.M_Base Verif.M_Params Verif.M_Buffer Verif.M_View Verif.M_Denoise Verif.M_Archive Verif.M_Serializer
  Verif.M_Image.
Import ListNotations.
Open Scope nat_scope.

Record machine := Machine { disk : fs; live : list (option (buffer word)) }.
Inductive answer := Status (st : status) | Loaded (ok : bool) | Done | Refused | Killed.

Inductive call :=
| MNew (p : params)
| MDrop (i : nat)
| MPut (i : nat) (b : buffer word)
| MImport (e : env) (i : nat) (q : path) (den : denoiser word) (ic : image_codec word) (start : Z)
| MImportString (i : nat) (data : list Z) (den : denoiser word) (ic : image_codec word) (start : Z)
| MExport (e : env) (i : nat) (q : path) (ic : image_codec word) (start : Z)
| MSave (e : env) (i : nat) (q : path)
| MLoad (e : env) (q : path)
| MKill
| MKillSave (e : env) (i : nat) (q : path)
| MKillExport (e : env) (i : nat) (q : path) (ic : image_codec word) (start : Z).

(** the image of a variable; using a destroyed one is UB *)
Definition held (m : machine) (i : nat) : res (buffer word) :=
  let* o := rd (live m) i in match o with Some b => Ok b | None => UB end.
Definition kill (f : fs) (m : machine) : machine := Machine f (map (fun _ => None) (live m)).

Section Store.
Context {A : Arith word}.
Variable cd : codec.
Variable legacy : buffer word -> list Z -> res (option (buffer word)).

(** MKillSave and MKillExport: the process is killed while the call runs.  By
    then the file may or may not be open (can_open) and any number of the
    bytes of the new contents (reaches) may be in it; ofstream truncates the
    file when it opens it (M_Image.write_file). *)
Definition step (m : machine) (o : call) : res (machine * answer) :=
  match o with
  (** wavelet_image.cc:119-120 WaveletImage(parameters) *)
  | MNew p =>
      match new_buffer p with
      | Ok b => Ok (Machine (disk m) (live m ++ [Some b]), Done)
      | Throw => Ok (m, Refused)
      | UB => UB
      end
  (** wavelet_image.cc:125 *)
  | MDrop i => let* _ := held m i in let* l := wr (live m) i None in Ok (Machine (disk m) l, Done)
  (** wavelet_image.cc:177 buffer(): whatever is done to the buffer through
      this reference; [b] is what it is afterwards *)
  | MPut i b => let* _ := held m i in let* l := wr (live m) i (Some b) in Ok (Machine (disk m) l, Done)
  (** wavelet_image.cc:22-37, 127-132 *)
  | MImport e i q den ic start =>
      let* b := held m i in
      let* r := import_file e (disk m) q b den ic start in
      let* l := wr (live m) i (Some (snd r)) in
      Ok (Machine (disk m) l, Status (fst r))
  (** wavelet_image.cc:58-75, 140-145 *)
  | MImportString i data den ic start =>
      let* b := held m i in
      let* r := import_string b data den ic start in
      let* l := wr (live m) i (Some (snd r)) in
      Ok (Machine (disk m) l, Status (fst r))
  (** wavelet_image.cc:39-56, 134-138 *)
  | MExport e i q ic start =>
      let* b := held m i in
      let w := export_file e (disk m) q b ic start in
      let* st := fst w in
      Ok (Machine (snd w) (live m), Status st)
  (** wavelet_image.cc:93-106, 169-171 *)
  | MSave e i q =>
      let* b := held m i in
      let w := save_file cd e (disk m) q b in
      let* st := fst w in
      Ok (Machine (snd w) (live m), Status st)
  (** wavelet_image.cc:153-167 *)
  | MLoad e q =>
      let* r := load_file cd legacy e (disk m) q in
      match r with
      | Some b => Ok (Machine (disk m) (live m ++ [Some b]), Loaded true)
      | None => Ok (m, Loaded false)
      end
  | MKill => Ok (kill (disk m) m, Killed)
  | MKillSave e i q =>
      let* b := held m i in
      Ok (kill (snd (save_file cd e (disk m) q b)) m, Killed)
  | MKillExport e i q ic start =>
      let* b := held m i in
      Ok (kill (snd (export_file e (disk m) q b ic start)) m, Killed)
  end.

(** a history: the answers in order *)
Fixpoint run (m : machine) (l : list call) : res (machine * list answer) :=
  match l with
  | [] => Ok (m, [])
  | o :: t => let* r := step m o in let* r' := run (fst r) t in Ok (fst r', snd r :: snd r')
  end.
End Store.
