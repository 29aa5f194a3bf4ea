(** * S_SfCodec: what the legacy compressor is given *)
Require Import List ZArith Reals.
Import ListNotations.
From Verif Require Import M_Base M_Archive M_SfCodec.
Open Scope Z_scope.

(** indices rise from above [lo] and stay below [n] *)
Fixpoint rising (lo n : Z) (idx : list Z) : Prop :=
  match idx with [] => True | i :: t => lo < i < n /\ rising i n t end.

(** A sparse matrix as OriginalData describes it: the positions of the
    nonzero values in order, fewer than 2^31 elements, at least one value. *)
Record sparse (o : origin) : Prop := {
  sp_frag : 7 <= o_frag o <= 21 \/ o_frag o = 23;
  sp_rows : 1 <= o_rows o < 2 ^ 31;
  sp_cols : 1 <= o_cols o < 2 ^ 31;
  sp_size : o_rows o * o_cols o < 2 ^ 31;
  sp_some : o_values o <> [];
  sp_len : length (o_indexes o) = length (o_values o);
  sp_index : rising (-1) (o_rows o * o_cols o) (o_indexes o);
  sp_nonzero : Forall (fun v => is_zero v = false) (o_values o) }.

(** ** Which float stands for a float, with [fl] bits of the fraction kept

    The absolute value of a float has the bits [m] below the sign; neighbours
    that keep [fl] bits of the fraction are 2^(23 - fl) apart.  The nearest
    one is taken, the larger of two; below the smallest normal number it is
    +0, from the largest finite number on infinity. *)
Definition nearest (fl m : Z) : Z :=
  if fl =? 23 then m else (m + 2 ^ (22 - fl)) / 2 ^ (23 - fl) * 2 ^ (23 - fl).
Definition kept (fl : Z) (w : word) : word :=
  let sign := wbits w / 2 ^ 31 * 2 ^ 31 in
  let m := nearest fl (wbits w mod 2 ^ 31) in
  mkword (if m <? 2 ^ 23 then 0 else if m <? 255 * 2 ^ 23 then sign + m else sign + 255 * 2 ^ 23).

(** A float with a full fraction, and its value *)
Definition normal (w : word) : Prop := 2 ^ 23 <= wbits w mod 2 ^ 31 < 255 * 2 ^ 23.
Definition float_value (w : word) : R :=
  let m := wbits w mod 2 ^ 31 in
  ((if (wbits w <? 2 ^ 31)%Z then 1 else -1) * IZR (2 ^ 23 + m mod 2 ^ 23) * powerRZ 2 (m / 2 ^ 23 - 150))%R.

(** the matrix that is read back: the values as [kept] says *)
Definition read_back (o : origin) : origin :=
  Origin (o_frag o) (o_row_based o) (o_rows o) (o_cols o) (o_indexes o) (map (kept (o_frag o)) (o_values o)).
