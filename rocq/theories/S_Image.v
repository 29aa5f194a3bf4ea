(** * S_Image: what image codecs, imports, exports and files should do *)
Require Import List Bool Arith ZArith.
Require Import Verif.M_Base Verif.M_Params Verif.M_Buffer Verif.M_Image.
Import ListNotations.
Open Scope nat_scope.

(** Channels start .. start+n-1 exist, have the same size and are not empty. *)
Definition encodable {T} (n : nat) (image : list (mat T)) (start : nat) : Prop :=
  exists r c, r <> 0 /\ c <> 0 /\
    forall k, k < n -> exists m, nth_error image (start + k) = Some m /\ rows m = r /\ cols m = c.

(** The 8-bit value at column x, line y of plane k *)
Definition pixel (img : cimg) (x y k : nat) : option Z :=
  nth_error (cpixels img) (k * (cwidth img * cheight img) + y * cwidth img + x).

(** What CImg guarantees of an image it loaded *)
Definition cimg_wf (img : cimg) : Prop :=
  length (cpixels img) = cspectrum img * (cwidth img * cheight img).

(** [img] shows the n channels from [start], every value converted by [f]. *)
Definition shows {T} (f : T -> Z) (n : nat) (image : list (mat T)) (start : nat) (img : cimg) : Prop :=
  cspectrum img = n /\ cimg_wf img /\
  forall k, k < n -> exists m, nth_error image (start + k) = Some m /\
    rows m = cheight img /\ cols m = cwidth img /\
    forall x y, x < cwidth img -> y < cheight img ->
      exists v, mget m y x = Ok v /\ pixel img x y k = Some (f v).

(** The image after a successful Decode of [img] into channels start ..
    start+n-1: these hold the planes, channels that existed outside keep
    their contents, missing channels in front are empty. *)
Definition decoded {T} (f : Z -> T) (n : nat) (img : cimg) (image : list (mat T)) (start : nat)
  (image' : list (mat T)) : Prop :=
  length image' = Nat.max (length image) (start + n) /\
  (forall i, i < length image -> i < start \/ start + n <= i -> nth_error image' i = nth_error image i) /\
  (forall i, length image <= i < start -> nth_error image' i = Some (Mat 0 0 [])) /\
  (forall k, k < n -> exists m, nth_error image' (start + k) = Some m /\
     length (elts m) = rows m * cols m /\ rows m = cheight img /\ cols m = cwidth img /\
     forall x y, x < cwidth img -> y < cheight img ->
       exists v, pixel img x y k = Some v /\ mget m y x = Ok (f v)).

(** Three channels converted pixel by pixel, the others kept. *)
Definition pixelwise {T} (f : T -> T -> T -> T * T * T) (image : list (mat T)) (start : nat)
  (image' : list (mat T)) : Prop :=
  length image' = length image /\
  (forall i, i < start \/ start + 3 <= i -> nth_error image' i = nth_error image i) /\
  exists a b c a' b' c',
    nth_error image start = Some a /\ nth_error image (start + 1) = Some b /\ nth_error image (start + 2) = Some c /\
    nth_error image' start = Some a' /\ nth_error image' (start + 1) = Some b' /\ nth_error image' (start + 2) = Some c' /\
    Forall (fun m => length (elts m) = rows m * cols m /\ rows m = rows a /\ cols m = cols a) [a'; b'; c'] /\
    forall y x, y < rows a -> x < cols a -> exists u v w,
      mget a y x = Ok u /\ mget b y x = Ok v /\ mget c y x = Ok w /\
      mget a' y x = Ok (fst (fst (f u v w))) /\ mget b' y x = Ok (snd (fst (f u v w))) /\ mget c' y x = Ok (snd (f u v w)).

(** A JPEG library that loses nothing at this quality *)
Definition lossless (lib : jpeg) (quality : Z) : Prop :=
  forall img size, cimg_wf img -> exists bytes,
    jsave lib img size quality = Ok bytes /\ bytes <> [] /\ jload lib bytes = Some img.
