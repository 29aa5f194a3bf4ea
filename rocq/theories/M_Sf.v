(** * M_Sf: the code tables and the bit stream of
    sources/internal/sf_compressor.cc (SfCompressor::Impl).

    uint32_t and uint8_t arithmetic is written with explicit wrap-around.
    Lines refer to sf_compressor.cc. *)
Require Import List ZArith Bool.
Import ListNotations.
From Verif Require Import M_Base.
Set Implicit Arguments.
Open Scope Z_scope.

Definition w32 (x : Z) : Z := x mod 2 ^ 32.
Definition w8 (x : Z) : Z := x mod 2 ^ 8.

(** operator[] of std::array with an index of any integer type *)
Definition rdz {A} (l : list A) (i : Z) : res A := if i <? 0 then UB else rd l (Z.to_nat i).

(** ** Tables built by the constructor *)

(** 61-64: Pow2Int32[0] = 1; Pow2Int32[t] = 2 * Pow2Int32[t - 1], t < 32 *)
Fixpoint doubles (n : nat) (x : Z) : list Z :=
  match n with O => [] | S n' => x :: doubles n' (w32 (2 * x)) end.
Definition pow2_tab : list Z := doubles 32 1.
(** Pow2Int32[i] *)
Definition pow2i (i : Z) : res Z := rdz pow2_tab i.

(** 71-78: the borders of the pools 0 (exponent jumps, 16 pools) and 1 (runs of
    zeros, 63 pools): five given ones, then Last[t] = 2 * Last[t - 2] *)
Fixpoint grow (n : nat) (l : list Z) : list Z :=
  match n with
  | O => l
  | S n' => grow n' (l ++ [w32 (2 * nth (length l - 2) l 0)])
  end.
Definition last0 : list Z := grow 11 [0; 1; 2; 4; 6].
Definition last1 : list Z := grow 58 [0; 1; 2; 3; 4].

(** 79-82: CodeQty[0] = 1; CodeQty[t] = Last[t] - Last[t - 1] *)
Fixpoint diffs (l : list Z) : list Z :=
  match l with
  | a :: ((b :: _) as t) => w32 (b - a) :: diffs t
  | _ => []
  end.
Definition code_qty (last : list Z) : list Z := 1 :: diffs last.

(** 87: Pool[4].Last[t] = 2^t *)
Definition last4 : list Z := pow2_tab.
(** 90-91: Pool[5].Last[t] = Pool[4].Last[t + 1] - 1; Last[31] = 0xFFFFFFFF *)
Definition last5 : list Z := map (fun x => x - 1) (tl last4) ++ [2 ^ 32 - 1].

(** ** 674-697 setPoolSearch, findPoolNr

    BisecStep has six elements.  The steps are computed from PoolsCount once
    per pool in the code and at each search here. *)
Fixpoint bisec_steps (fuel : nat) (count k : Z) : res (list Z) :=
  match fuel with
  | O => UB                                            (* BisecStep[6] *)
  | S fuel' =>
      let* p := pow2i (k + 1) in
      let* q := pow2i k in
      if p <? count
      then let* r := bisec_steps fuel' count (k + 1) in Ok (q :: r)
      else Ok [count - q]
  end.
Definition set_pool_search (count : Z) : res (list Z) :=
  if 1 <? count then bisec_steps 6 count 0 else Ok [].

(** [steps] from the last to the first *)
Fixpoint bisect (last : list Z) (steps : list Z) (v tmp : Z) : res Z :=
  match steps with
  | [] => Ok tmp
  | s :: t =>
      let test := w8 (s + tmp) in
      let* border := rdz last (test - 1) in
      bisect last t v (if border <? v then test else tmp)
  end.
(** findPoolNr(PNr, v) for a pool with the borders [last] (PoolsCount of them) *)
Definition find_pool (last : list Z) (v : Z) : res Z :=
  let* steps := set_pool_search (Z.of_nat (length last)) in
  bisect last (rev steps) v 0.

(** ** 729-755 SevenOfNine: (BitsUsed, BitsOut) *)
Definition seven_of_nine (sel poss : Z) : res (Z * Z) :=
  let* bits := find_pool last4 poss in
  let* p := pow2i bits in
  let mm := w32 (p - poss + 1) in
  if 1 <? mm then
    let* z := find_pool last5 mm in
    if 0 <? sel then
      let* pz := pow2i z in
      if sel <=? w32 (mm - pz) then
        let* pz1 := pow2i (z - 1) in
        Ok (w8 (bits - 1), w32 (sel + (pz1 - 1)))
      else Ok (bits, w32 (sel + (mm - 1)))
    else Ok (w8 (bits - z), sel)
  else Ok (bits, sel).

(** ** 850-874 Bitstream: append the low [bits] bits of a code

    [w_out] is OutData[0 .. OutBytes); OutData has [cap] elements. *)
Record writer := Writer { w_out : list Z; w_free : Z }.

(** OutData[OutBytes - 1] += x *)
Definition add_last (l : list Z) (x : Z) : res (list Z) :=
  let i := (length l - 1)%nat in
  let* b := rd l i in
  wr l i (w8 (b + x)).

Fixpoint put_code_loop (fuel : nat) (cap : nat) (w : writer) (bits v : Z) : res writer :=
  match fuel with
  | O => UB                                            (* not reached: one bit at least per round *)
  | S fuel' =>
      if 0 <? bits then
        let* w1 :=
          if w_free w =? 0
          then let* _ := guard (length (w_out w) <? cap)%nat in Ok (Writer (w_out w ++ [0]) 8)
          else Ok w in
        let free := w_free w1 in
        if bits <=? free then
          let free' := free - bits in
          let* out := add_last (w_out w1) (w32 (Z.shiftl v free')) in
          Ok (Writer out free')
        else
          let* out := add_last (w_out w1) (Z.shiftr v (bits - free)) in
          let bits' := bits - free in
          let* p := pow2i bits' in
          put_code_loop fuel' cap (Writer out 0) bits' (v mod p)
      else Ok w
  end.
Definition put_code (cap : nat) (w : writer) (c : Z * Z) : res writer :=
  put_code_loop (S (Z.to_nat (fst c))) cap w (fst c) (snd c).

Fixpoint put_codes (cap : nat) (w : writer) (l : list (Z * Z)) : res writer :=
  match l with
  | [] => Ok w
  | c :: t => let* w' := put_code cap w c in put_codes cap w' t
  end.

(** ** 911-937 FromBitstream: take [bits] bits from the stream; the byte being
    read is shifted left in place *)
Record reader := Reader { r_data : list Z; r_nr : nat; r_free : Z }.

Fixpoint get_bits_loop (fuel : nat) (r : reader) (rest acc : Z) : res (Z * reader) :=
  match fuel with
  | O => UB                                            (* not reached *)
  | S fuel' =>
      if 0 <? rest then
        let '(nr, free) := if r_free r =? 0 then (S (r_nr r), 8) else (r_nr r, r_free r) in
        let* b := rd (r_data r) nr in
        if rest <=? free then
          let* d := wr (r_data r) nr (w8 (Z.shiftl b rest)) in
          Ok (w32 (w32 (Z.shiftl acc rest) + Z.shiftr b (8 - rest)),
              Reader d nr (free - rest))
        else
          get_bits_loop fuel' (Reader (r_data r) nr 0) (rest - free)
            (w32 (w32 (Z.shiftl acc free) + Z.shiftr b (8 - free)))
      else Ok (acc, r)
  end.
(** the argument is a uint8_t *)
Definition get_bits (r : reader) (n : Z) : res (Z * reader) :=
  get_bits_loop (S (Z.to_nat (w8 n))) r (w8 n) 0.

(** ** 757-780 NineOfSeven *)
Definition nine_of_seven (r : reader) (poss : Z) : res (Z * reader) :=
  let* bits := find_pool last4 poss in
  let* p := pow2i bits in
  let mm := w32 (p - poss + 1) in
  if mm =? 1 then get_bits r bits
  else
    let* z := find_pool last5 mm in
    let* (sel, r1) := get_bits r (bits - z) in
    if 0 <? sel then
      let* (x, r2) := get_bits r1 (z - 1) in
      let sel := w32 (w32 (Z.shiftl sel (z - 1)) + x) in
      let* pz1 := pow2i (z - 1) in
      let* pz := pow2i z in
      if w32 (sel + 1 - pz1) <=? w32 (mm - pz) then Ok (w32 (sel + 1 - pz1), r2)
      else
        let* (y, r3) := get_bits r2 1 in
        Ok (w32 (w32 (Z.shiftl sel 1) + y - mm + 1), r3)
    else Ok (sel, r1).

(** ** 159-171: the code of an exponent after the exponent [last] (ExpJump) *)
Definition exp_jump (last e : Z) : Z :=
  if last <=? e then
    let j := e - last in w8 (j + (if last <? j then last else j))
  else
    let j := last - e in
    let mx := 255 - last in
    w8 (j + (if mx <? j then mx else j - 1)).

(** 618-638: the exponent read after the exponent [last] *)
Definition exp_unjump (last code : Z) : Z :=
  if last <? 128 then
    if code <=? 2 * last then
      if code mod 2 =? 0 then w8 (code / 2 + last) else w8 (last - (code + 1) / 2)
    else code
  else
    if code <=? 2 * (255 - last) then
      if code mod 2 =? 0 then w8 (code / 2 + last) else w8 (last - (code + 1) / 2)
    else w8 (255 - code).

(** the exponents of a whole timeline: LastExpTmp starts at 127 *)
Fixpoint exp_jumps (last : Z) (l : list Z) : list Z :=
  match l with [] => [] | e :: t => exp_jump last e :: exp_jumps e t end.
Fixpoint exp_unjumps (last : Z) (l : list Z) : list Z :=
  match l with
  | [] => []
  | c :: t => let e := exp_unjump last c in e :: exp_unjumps e t
  end.
