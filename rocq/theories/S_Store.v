(** * S_Store: files as a store of images *)
Require Import List Bool Arith ZArith.
Require Import Verif.M_Base Verif.M_Params Verif.M_Buffer Verif.M_Denoise Verif.M_Archive Verif.M_Serializer Verif.M_Image
  Verif.M_Store Verif.S_Params Verif.S_Buffer.
Import ListNotations.
Open Scope nat_scope.

(** The call opens the file [q] for writing *)
Definition opens (q : path) (o : call) : Prop :=
  match o with
  | MSave e _ q' | MKillSave e _ q' | MExport e _ q' _ _ | MKillExport e _ q' _ _ => can_open e = true /\ q' = q
  | _ => False
  end.

(** Parameters the constructor accepts, for images that have pixels and fit in memory *)
Definition sensible (p : params) : Prop :=
  accepted p /\ Forall (fun n => (1 <= n)%Z) (shape p) /\
  (Z.of_nat (level_rows p 0) * Z.of_nat (level_cols p 0) < 2 ^ 64)%Z.
(** A buffer made by calls of the library *)
Definition made {A : Arith word} (b : buffer word) : Prop := exists p, sensible p /\ reachable p b.
(** A codec that delivers proper matrices *)
Definition delivers (ic : image_codec word) : Prop :=
  forall data im, icdecode ic data = Ok (true, im) -> Forall mwf im.

(** Images are saved to and loaded from the files in [arch], pictures are
    exported to other files *)
Definition proper {A : Arith word} (arch : path -> Prop) (o : call) : Prop :=
  match o with
  | MNew p => sensible p
  | MPut _ b => made b
  | MImport _ _ _ den ic _ | MImportString _ _ den ic _ => keeps_shape den /\ delivers ic
  | MExport _ _ q _ _ | MKillExport _ _ q _ _ => ~ arch q
  | MSave _ _ q | MKillSave _ _ q | MLoad _ q => arch q
  | MDrop _ | MKill => True
  end.
(** A first program, before any image was saved *)
Definition initial (arch : path -> Prop) (m : machine) : Prop :=
  live m = [] /\ forall q, arch q -> disk m q = None.

Section Last.
Context {A : Arith word}.
Variable cd : codec.
Variable legacy : buffer word -> list Z -> res (option (buffer word)).

(** The last time the file [q] was opened for writing was by a Save, finished
    or killed, of an image that held [b] at that time, and [n] bytes (or all)
    reached the file. *)
Definition last_saved (m0 : machine) (h : list call) (q : path) (b : buffer word) (n : nat) : Prop :=
  exists h1 o h2 e i m1 l1,
    h = h1 ++ o :: h2 /\ (o = MSave e i q \/ o = MKillSave e i q) /\ can_open e = true /\ reaches e = n /\
    run cd legacy m0 h1 = Ok (m1, l1) /\ nth_error (live m1) i = Some (Some b) /\
    Forall (fun o' => ~ opens q o') h2.
End Last.
