(** * S_Python: what a Python user means by the items of an array and by a slice *)
Require Import List Bool Arith ZArith.
Require Import Verif.M_Base Verif.M_Params Verif.M_Buffer Verif.S_Buffer Verif.M_Python.
Import ListNotations.
Open Scope Z_scope.

(** a float32 array [c, h, w] that lies row after row in its memory *)
Definition c_contiguous (a : ndarray) (c h w : nat) : Prop :=
  nd_f32 a = true /\ nd_item a = 4%nat /\ nd_shape a = [c; h; w] /\
  nd_strides a = [4 * Z.of_nat (h * w); 4 * Z.of_nat w; 4] /\
  0 <= nd_off a /\ nd_off a + 4 * Z.of_nat (c * h * w) <= Z.of_nat (length (nd_mem a)).

(** data[ch](i, j) is a[ch, i, j] *)
Definition signals_of {T} (load : list Z -> T) (a : ndarray) (c h w : nat) (data : list (mat T)) : Prop :=
  length data = c /\
  forall ch m, nth_error data ch = Some m ->
    sized h w m /\
    forall i j, (i < h)%nat -> (j < w)%nat ->
      exists bs, item a [ch; i; j] = Ok bs /\ mget m i j = Ok (load bs).

(** out[ch, i, j] is data[ch](i, j) *)
Definition array_of {T} (data : list (mat T)) (c h w : nat) (out : array T) : Prop :=
  ashape out = [c; h; w] /\ length (aelts out) = (c * h * w)%nat /\
  forall ch m i j, nth_error data ch = Some m -> (i < h)%nat -> (j < w)%nat ->
    exists x, mget m i j = Ok x /\ nth_error (aelts out) ((ch * h + i) * w + j) = Some x.

(** the array has the wrong number of dimensions or a wrong side for a 2D
    buffer; sides are [width, height] *)
Definition wrong_shape (p : params) (channels : Z) (a : ndarray) : Prop :=
  forall c h w, nd_shape a = [c; h; w] ->
    ~ (Z.of_nat c = channels /\ shape p = [Z.of_nat w; Z.of_nat h]).

(** channel i of n is in [start:stop] *)
Definition after (n : Z) (start : option Z) (i : Z) : Prop :=
  match start with None => True | Some x => if x <? 0 then x + n <= i else x <= i end.
Definition before (n : Z) (stop : option Z) (i : Z) : Prop :=
  match stop with None => True | Some x => if x <? 0 then i < x + n else i < x end.
Definition selects (n : Z) (start stop : option Z) (i : Z) : Prop :=
  0 <= i < n /\ after n start i /\ before n stop i.

(** the numpy array a new array is, when [store] gives the bytes of a float *)
Definition nd_of {T} (store : T -> list Z) (h w : nat) (l : list T) : ndarray :=
  ND (flat_map store l) 0 [h; w] [4 * Z.of_nat w; 4] 4 true true.
