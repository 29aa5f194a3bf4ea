(** * M_SfCodec: Compress and Decompress of
    sources/internal/sf_compressor.cc, and the legacy reader of
    sources/wavelet_buffer_serializer.cc that uses them.

    Lines refer to sf_compressor.cc unless another file is named.
    [cap] is the [buffer_size] of the constructor: the size of the vectors
    OutData, ZeroCount, Fragment and ExpJump. *)
Require Import List ZArith Bool.
Import ListNotations.
Require Import Flocq.Core.Core Flocq.IEEE754.BinarySingleNaN.
From Verif Require Import M_Base M_Archive M_Float M_Sf.
Set Implicit Arguments.
Open Scope Z_scope.

(** sf_compressor.h:21-31 OriginalData; the values are the bit patterns of
    the floats. *)
Record origin := Origin {
  o_frag : Z; o_row_based : bool; o_rows : Z; o_cols : Z;
  o_indexes : list Z; o_values : list word }.

(** ** 876-909 float_to_bfloat16: (Exp, Sgn, SgnFrag)

    The bits of the float are read through a pointer to uint64_t: the model
    takes the 32 bits of the float.  For 0 the field Sgn is not set; its
    caller reads it (155), hence [UB]. *)
Definition to_bf16 (frag_len : Z) (x : word) : res (Z * Z * Z) :=
  if is_zero x then UB
  else
    let z := wbits x in
    let exp := w32 (Z.shiftl z 1) / 2 ^ 24 in
    let frag := w32 (Z.shiftl z 9) / 2 ^ (32 - frag_len) in
    let* p := pow2i frag_len in
    let '(exp, frag) :=
      if (frag_len <? 23) && (w32 (Z.shiftl z (9 + frag_len)) / 2 ^ 31 =? 1) then
        if frag + 1 =? p then (if exp <? 255 then exp + 1 else exp, 0) else (exp, frag + 1)
      else (exp, frag) in
    let sgn := z / 2 ^ 31 in
    Ok (exp, sgn, frag + w32 (Z.shiftl sgn frag_len)).

(** ** 149-184: the timeline: for each value the zeros before it, the code of
    its exponent and its fragment; and SgnUsed *)
Record entry := Entry { e_zeros : Z; e_exp : Z; e_frag : Z }.

Fixpoint timeline (frag_len : Z) (prev : option Z) (last_exp sgn_used : Z)
    (idx : list Z) (vals : list word) : res (list entry * Z) :=
  match idx, vals with
  | i :: idx', v :: vals' =>
      let zeros := w32 (i - match prev with Some j => w32 (1 + j) | None => 0 end) in
      let* (e, s, f) := to_bf16 frag_len v in
      let* (l, used) := timeline frag_len (Some i) e (Z.lor (s + 1) sgn_used) idx' vals' in
      Ok (Entry zeros (exp_jump last_exp e) f :: l, used)
  | _, _ => Ok ([], sgn_used)
  end.

(** 173-174: DSQty, the number of values in each pool *)
Definition histogram (last : list Z) (values : list Z) : res (list Z) :=
  let* ps := mapM (find_pool last) values in
  Ok (map (fun t => Z.of_nat (count_occ Z.eq_dec ps (Z.of_nat t))) (seq 0 (length last))).

(** 199-205: PoolsUsed, one more than the last pool with a value in it *)
Fixpoint pools_used (h : list Z) : nat :=
  match h with
  | [] => O
  | a :: t => match pools_used t with O => if 0 <? a then 1%nat else O | S k => S (S k) end
  end.

(** 206-209: DSQtyUp, the running sums *)
Fixpoint running (acc : Z) (h : list Z) : list Z :=
  match h with [] => [] | a :: t => w32 (acc + a) :: running (w32 (acc + a)) t end.

(** ** 215-255: code lengths, first pass (in doubles) *)
Definition pow2d (k : Z) : f64 := binary_normalize 53 1024 _ _ mode_NE 1 k false.  (* Pow2Dbl129[k] *)
Definition f64_sub (x y : f64) : f64 := Bminus mode_NE x y.
Definition f64_mul (x y : f64) : f64 := Bmult mode_NE x y.
Definition f64_div (x y : f64) : f64 := Bdiv mode_NE x y.
Definition f64_add (x y : f64) : f64 := Bplus mode_NE x y.

(** 224-241: [n] more pools from pool [t] *)
Fixpoint scan (n : nat) (last up : list Z) (len codes_ready count_ready : Z) (free total : f64)
    (t next : nat) : res nat :=
  match n with
  | O => Ok next
  | S n' =>
      let* l := rd last t in
      let soll := f64_div (f64_mul (f64_of_int (w32 (l + 1 - codes_ready)))
                                   (f64_sub (pow2d (32 - len)) (f64_of_int 1))) free in
      if Bltb (f64_of_int 1) soll then Ok next
      else
        let* u := rd up t in
        let ist := f64_div (f64_of_int (w32 (u - count_ready))) total in
        scan n' last up len codes_ready count_ready free total (S t)
          (if Bleb soll ist then S t else next)
  end.

(** 222-255: TestCodeLen = len .. 32; [lens] are the lengths of the pools that
    are ready.  At length 32 every share is 0 and all pools get ready. *)
Fixpoint first_pass (fuel : nat) (last up : list Z) (used : nat) (total : f64) (len : Z)
    (codes_ready count_ready : Z) (free : f64) (lens : list Z) : res (list Z) :=
  match fuel with
  | O => UB
  | S fuel' =>
      let ready := length lens in
      let* next := scan (used - ready) last up len codes_ready count_ready free total ready ready in
      let* (codes_ready, count_ready, free) :=
        if (ready <? next)%nat then
          let* l := rd last (next - 1) in
          let* top := rdz last (Z.of_nat used - 1) in
          let* u := rd up (next - 1) in
          Ok (w32 (l + 1), u, f64_sub (pow2d 32) (f64_of_int (w32 (top + 1 - w32 (l + 1)))))
        else Ok (codes_ready, count_ready, free) in
      let lens := lens ++ repeat len (next - ready) in
      if (length lens =? used)%nat then Ok lens
      else first_pass fuel' last up used total (len + 1) codes_ready count_ready free lens
  end.

(** ** 258-283: second pass, until all codes are used

    FreeCodes is a double; its values are multiples of 2^-32 below 2^21 and
    their sums and differences exact.  The model counts in units of 2^-32. *)
Definition share (qty len : Z) : Z := qty * 2 ^ (32 - len).
Definition shares (qtys lens : list Z) : Z :=
  fold_right (fun p s => share (fst p) (snd p) + s) 0 (combine qtys lens).

(** 266-280: one round over the pools *)
Fixpoint widen (qtys lens : list Z) (free : Z) : Z * list Z :=
  match qtys, lens with
  | q :: qtys', l :: lens' =>
      if free =? 0 then (free, lens)                   (* break (276) *)
      else if share q l <=? free then
        let '(f, r) := widen qtys' lens' (free - share q l) in (f, w8 (l - 1) :: r)
      else let '(f, r) := widen qtys' lens' free in (f, l :: r)
  | _, _ => (free, lens)
  end.
Fixpoint second_pass (fuel : nat) (qtys lens : list Z) (free : Z) : res (list Z) :=
  match fuel with
  | O => UB                                            (* does not end *)
  | S fuel' =>
      if 0 <? free then let '(f, r) := widen qtys lens free in second_pass fuel' qtys r f
      else Ok lens
  end.

Definition code_lens (last : list Z) (h : list Z) (total : Z) : res (list Z) :=
  let used := pools_used h in
  let up := running 0 (firstn used h) in
  let* top := rdz last (Z.of_nat used - 1) in
  let* lens := first_pass 33 last up used (f64_of_int total) 0 0 0
                 (f64_sub (pow2d 32) (f64_of_int (w32 (top + 1)))) [] in
  let qtys := firstn used (code_qty last) in
  second_pass (S (Z.to_nat (fold_right Z.add 0 lens))) qtys lens (2 ^ 32 - shares qtys lens).

(** ** 286-319: the pools of equal code length that are written *)
Record opool := Opool { p_len : Z; p_last : Z; p_off : Z; p_nr : Z }.

(** 300-313: CodeOffset of a pool after the pool [p] *)
Definition offset_after (p : opool) (len : Z) : Z :=
  w32 (w32 (Z.shiftl (w32 (p_off p + p_last p + 1)) (len - p_len p)) - w32 (p_last p + 1)).
Definition offset (done : list opool) (len : Z) : Z :=
  match done with [] => 0 | p :: _ => offset_after p len end.

(** [done]: the finished pools, last first; [len], [prev], [nr]: the length of
    the pool being built, the border and the number of its last member *)
Fixpoint merge (done : list opool) (len cl prev nr : Z) (l : list (Z * Z)) : list opool :=
  match l with
  | [] => rev (Opool len prev (offset done len) nr :: done)
  | (last, cl') :: t =>
      if cl <? cl'
      then merge (Opool len prev (offset done len) nr :: done) cl' cl' last (nr + 1) t
      else merge done len cl' last (nr + 1) t
  end.
Definition out_pools (last lens : list Z) : res (list opool) :=
  match combine last lens with
  | [] => UB                                           (* Last[PoolsUsed - 1] (301) *)
  | (b, cl) :: t => Ok (merge [] cl cl b 0 t)
  end.

(** ** 379-425: the description of the pools

    FreeCodes counted in units of 2^-32 as above; the conversion to uint32_t
    is undefined outside its range. *)
Definition max_poss (ldc free len : Z) : res Z :=
  let x := ldc + free * 2 ^ len / 2 ^ 32 in
  let* _ := guard ((0 <=? x) && (x <? 2 ^ 32)) in Ok x.

(** int LastDefinedCode = uint32_t *)
Definition i32_of (x : Z) : Z := if x <? 2 ^ 31 then x else x - 2 ^ 32.

(** 389-401: code lengths without a pool *)
Fixpoint gaps (fuel : nat) (ldc ldp ldl free len : Z) : res (list (Z * Z)) :=
  match fuel with
  | O => Ok []                                         (* at most 32 *)
  | S fuel' =>
      if ldl <? len - 1 then
        let* m := max_poss ldc free (ldl + 1) in
        let* mp := find_pool last1 m in
        let* c := seven_of_nine 0 (w32 (mp - ldp + 1)) in
        let* r := gaps fuel' ldc ldp (ldl + 1) free len in
        Ok (c :: r)
      else Ok []
  end.

(** [last] of pool PNr - 2 *)
Fixpoint describe (last : list Z) (ps : list opool) (ldc ldp ldl free : Z) : res (list (Z * Z)) :=
  match ps with
  | [] => Ok []
  | p :: t =>
      let* g := gaps 33 ldc ldp ldl free (p_len p) in
      let* m := max_poss ldc free (p_len p) in
      let* mp := find_pool last1 m in
      let* c := seven_of_nine (w32 (p_nr p - ldp)) (w32 (mp - ldp + 1)) in
      let free' := free - w32 (p_last p - ldc) * 2 ^ (32 - p_len p) in
      let* l := rdz last (p_nr p) in
      let* r := describe last t (i32_of l) (p_nr p) (p_len p) free' in
      Ok (g ++ c :: r)
  end.
Definition description (last : list Z) (ps : list opool) : res (list (Z * Z)) :=
  let* p := rd ps 0 in
  if 0 <=? p_len p - 1 then describe last ps (-1) (-1) (p_len p - 1) (2 ^ 32) else Ok [].

(** ** 431-474: the timeline *)
Definition entry_code (ps : list opool) (v : Z) : res (Z * Z) :=
  let* k := find_pool (map p_last ps) v in
  let* p := rdz ps k in
  let* n := pow2i (p_len p) in
  seven_of_nine (w32 (v + p_off p)) n.

Fixpoint timeline_codes (zeros_appear : option bool) (ps2 ps3 : list opool) (frag_codes : Z) (l : list entry)
  : res (list (Z * Z)) :=
  match l with
  | [] => Ok []
  | e :: t =>
      let* za := match zeros_appear with Some b => Ok b | None => UB end in
      let* c1 := if za : bool then let* c := entry_code ps3 (e_zeros e) in Ok [c] else Ok [] in
      let* p := rd ps2 0 in
      let* c2 := if 0 <? p_len p then let* c := entry_code ps2 (e_exp e) in Ok [c] else Ok [] in
      let* c3 := seven_of_nine (e_frag e mod frag_codes) frag_codes in
      let* r := timeline_codes zeros_appear ps2 ps3 frag_codes t in
      Ok (c1 ++ c2 ++ c3 :: r)
  end.

(** ** 324-483: everything that is written, in order; [None]: refused.
    The model collects the codes and writes them at the end. *)
Definition header (o : origin) (sgn_used nz : Z) (ps2 ps3 : list opool) : res (list (Z * Z) * option bool * Z) :=
  let m_row := w32 (o_rows o) in
  let m_col := w32 (o_cols o) in
  let* c1 := seven_of_nine 0 4 in
  let* c2 := seven_of_nine (if o_row_based o then 1 else 0) 2 in
  let* rcl := find_pool last4 (w32 (Z.max m_row m_col + 1)) in
  let* c3 := seven_of_nine rcl 32 in
  if 0 <? rcl then
    let* p := pow2i rcl in
    let* c4 := seven_of_nine m_row p in
    let* c5 := seven_of_nine m_col p in
    let* c6 := seven_of_nine sgn_used 4 in
    if 0 <? sgn_used then
      let poss := w32 (m_row * m_col + 1) in
      let* c7 := seven_of_nine nz poss in
      let* c8 := seven_of_nine (if o_frag o <? 22 then o_frag o - 7 else o_frag o - 8) 16 in
      let* p2 := rd ps2 0 in
      let* c9 := seven_of_nine (p_len p2) 8 in
      let za := nz <? poss in
      let* c10 := if za then let* p3 := rd ps3 0 in let* c := seven_of_nine (p_len p3) 32 in Ok [c] else Ok [] in
      Ok ([c1; c2; c3; c4; c5; c6; c7; c8; c9] ++ c10, Some za, rcl)
    else Ok ([c1; c2; c3; c4; c5; c6], None, rcl)
  else Ok ([c1; c2; c3], None, rcl).

Definition body (o : origin) (sgn_used : Z) (tl : list entry) (ps2 ps3 : list opool)
  : res (list (Z * Z)) :=
  let nz := Z.of_nat (length tl) in
  let* (h, za, rcl) := header o sgn_used nz ps2 ps3 in
  if 0 <? rcl then
    let* d2 := description last0 ps2 in
    let* d3 := description last1 ps3 in
    let* frag_codes := pow2i (if sgn_used =? 3 then o_frag o + 1 else o_frag o) in
    let* t := timeline_codes za ps2 ps3 frag_codes tl in
    Ok (h ++ d2 ++ d3 ++ t)
  else Ok h.

(** The choice of the code lengths is a parameter, [code_lens] in the program:
    every complete choice can be written and read. *)
Definition compress_with (lens_of : list Z -> list Z -> Z -> res (list Z)) (cap : nat) (o : origin)
  : res (option (list Z)) :=
  if (o_frag o <? 7) || (23 <? o_frag o) || (o_frag o =? 22) then Ok None           (* 101 *)
  else if (o_cols o * o_rows o) mod 2 ^ 64 <? Z.of_nat (length (o_values o)) then Ok None   (* 106 *)
  else if negb (length (o_values o) =? length (o_indexes o))%nat then Ok None       (* 110 *)
  else
    let* _ := guard (length (o_indexes o) <=? cap)%nat in                           (* ZeroCount[TimelineLen] *)
    let* (tl, sgn_used) := timeline (o_frag o) None 127 0 (o_indexes o) (o_values o) in
    let* h0 := histogram last0 (map e_exp tl) in
    let* h1 := histogram last1 (map e_zeros tl) in
    let* lens0 := lens_of last0 h0 (Z.of_nat (length tl)) in
    let* lens1 := lens_of last1 h1 (Z.of_nat (length tl)) in
    let* ps2 := out_pools last0 lens0 in
    let* ps3 := out_pools last1 lens1 in
    if 2 ^ 31 <? w32 (o_rows o) * w32 (o_cols o) then Ok None                       (* 323 *)
    else
      let* codes := body o sgn_used tl ps2 ps3 in
      let* w := put_codes cap (Writer [] 0) codes in
      Ok (Some (w_out w)).
Definition compress : nat -> origin -> res (option (list Z)) := compress_with code_lens.

(** ** 485-671 Decompress *)

(** The members of the object that a call leaves for the next one. *)
Record impl := Impl { i_data : list Z; i_p2 : list opool; i_p3 : list opool }.
(** a new object: zeros everywhere (939-958), the vectors of size [cap] *)
Definition opool0 : opool := Opool 0 0 0 0.
Definition new_impl (cap : nat) : impl := Impl (repeat 0 cap) [opool0] [opool0].

(** Pool[PNr].Last is an array of 64 elements *)
Definition last_at (last : list Z) (i : Z) : res Z := rdz (last ++ repeat 0 (64 - length last)) i.

(** 545-557: do ... while (Gelesen == 0): (LastDefinedCodeLen, Gelesen).
    A length beyond 31 ends in an access outside Pow2Int32 (562), Pow2Dbl129
    (548) or OutData. *)
Fixpoint next_pool (fuel : nat) (r : reader) (ldc ldp ldl free : Z) : res (Z * Z * reader) :=
  match fuel with
  | O => UB
  | S fuel' =>
      let ldl := ldl + 1 in
      let* _ := guard (ldl <? 32) in
      let* m := max_poss ldc free ldl in
      let* mp := find_pool last1 m in
      let* (g, r) := nine_of_seven r (w32 (mp - ldp + 1)) in
      if g =? 0 then next_pool fuel' r ldc ldp ldl free else Ok (ldl, g, r)
  end.

(** 544-574; [n]: how many pools there can be *)
Fixpoint read_pools (n : nat) (last : list Z) (r : reader) (ldc ldp ldl free : Z) : res (list opool * reader) :=
  match n with
  | O => Ok ([], r)
  | S n' =>
      let* (len, g, r) := next_pool 33 r ldc ldp ldl free in
      let nr := w8 (ldp + g) in
      let* l := last_at last nr in
      let off := (2 ^ 32 - free) * 2 ^ len / 2 ^ 32 - ldc - 1 in
      let* _ := guard ((0 <=? off) && (off <? 2 ^ 32)) in
      let free' := free - w32 (l - ldc) * 2 ^ (32 - len) in
      let p := Opool len l off nr in
      if free' =? 0 then Ok ([p], r)
      else
        let* (ps, r) := read_pools n' last r (i32_of l) nr len free' in
        Ok (p :: ps, r)
  end.

(** 533-576: [first]: the first code length; without pools the arrays keep
    what they held, only their first elements are read later *)
Definition read_table (last : list Z) (old : list opool) (first : Z) (r : reader) : res (list opool * bool * reader) :=
  if 0 <=? first - 1 then
    let* (ps, r) := read_pools (length last) last r (-1) (-1) (first - 1) (2 ^ 32) in Ok (ps, true, r)
  else Ok (old, false, r).

(** 592-602, 608-617: read one code; [more]: the pools after the first are
    looked at (PoolsCount > 1) *)
Fixpoint read_more (r : reader) (v len0 : Z) (ps : list opool) : res (Z * reader) :=
  match ps with
  | [] => Ok (v, r)
  | p :: t =>
      let push := w8 (p_len p - len0) in
      let* (x, r) := get_bits r push in
      let v := w32 (w32 (Z.shiftl v push) + x) in
      if v <=? w32 (p_last p + p_off p) then Ok (w32 (v - p_off p), r)
      else read_more r v (p_len p) t
  end.
Definition read_entry (r : reader) (ps : list opool) (more : bool) : res (Z * reader) :=
  let* p := rd ps 0 in
  let* (v, r) := get_bits r (p_len p) in
  if p_last p <? v then read_more r v (p_len p) (if more then tl ps else [])
  else Ok (v, r).

(** 640-655: the value, in doubles, stored in a float *)
Definition f32_bits (x : f32) : Z :=
  match x with
  | B754_zero s => if s then 2 ^ 31 else 0
  | B754_infinity s => (if s then 2 ^ 31 else 0) + 255 * 2 ^ 23
  | B754_nan => 2143289344
  | B754_finite s m e _ =>
      (if s then 2 ^ 31 else 0)
      + (if Zpos m <? 2 ^ 23 then Zpos m else (e + 150) * 2 ^ 23 + (Zpos m - 2 ^ 23))
  end.
Definition sf_value (minus : bool) (frag_len exp frag : Z) : word :=
  let sign := f64_of_int (if minus then -1 else 1) in
  let x := f64_mul sign (f64_add (f64_of_int 1) (f64_div (f64_of_int frag) (pow2d frag_len))) in
  let x := if 127 <? exp then f64_mul x (pow2d (exp - 127))
           else if 0 <? exp then f64_div x (pow2d (127 - exp))
           else f64_of_int 0 in
  mkword (f32_bits (f32_of_f64 x)).

(** 588-659: [n] values; ZeroCount and ExpJump have [cap] elements *)
Fixpoint read_timeline (n : nat) (cap i : nat) (r : reader) (za : bool) (ps2 ps3 : list opool) (more2 more3 : bool)
    (sgn_used frag_len index last_exp : Z) : res (list Z * list word * reader) :=
  match n with
  | O => Ok ([], [], r)
  | S n' =>
      let* _ := guard (i <? cap)%nat in
      let* (zs, index, r) :=
        if za then
          let* (z, r) := read_entry r ps3 more3 in
          let index := w32 (index + 1 + z) in Ok ([index], index, r)
        else Ok ([], index, r) in
      let* (c, r) := read_entry r ps2 more2 in
      let e := exp_unjump last_exp (w8 c) in
      let* (minus, r) :=
        if sgn_used =? 3 then let* (b, r) := get_bits r 1 in Ok (b =? 1, r)
        else Ok (negb (sgn_used =? 1), r) in
      let* (f, r) := get_bits r frag_len in
      let v := sf_value minus frag_len e f in
      let* (ixs, vs, r) := read_timeline n' cap (S i) r za ps2 ps3 more2 more3 sgn_used frag_len index e in
      Ok (zs ++ ixs, v :: vs, r)
  end.

(** [None]: wrong version, false is returned *)
Definition decompress (im : impl) (blob : list Z) : res (option origin * impl) :=
  let cap := length (i_data im) in
  let* _ := guard (length blob <=? cap)%nat in                                      (* 505 *)
  let r := Reader (blob ++ skipn (length blob) (i_data im)) 0 8 in
  let* (version, r) := get_bits r 2 in
  if version =? 0 then
    let* (row_based, r) := get_bits r 1 in
    let* (rcl, r) := nine_of_seven r 32 in
    let* p := pow2i rcl in
    let* (m_row, r) := nine_of_seven r p in
    let* (m_col, r) := nine_of_seven r p in
    let* (sgn_used, r) := nine_of_seven r 4 in
    let poss := w32 (m_row * m_col + 1) in
    let* (nz, r) := nine_of_seven r poss in
    let* (f, r) := nine_of_seven r 16 in
    let frag_len := if 14 <? f then f + 8 else f + 7 in
    let* (first2, r) := nine_of_seven r 8 in
    let za := nz <? poss in
    let* (first3, r) :=
      if za then let* (x, r) := nine_of_seven r 32 in Ok (Some x, r) else Ok (None, r) in
    let* (ps2, more2, r) := read_table last0 (i_p2 im) first2 r in
    let* first3 := match first3 with Some x => Ok x | None => UB end in
    let* (ps3, more3, r) := read_table last1 (i_p3 im) first3 r in
    let* (ixs, vs, r) :=
      read_timeline (Z.to_nat nz) cap 0 r za ps2 ps3 more2 more3 sgn_used frag_len (2 ^ 32 - 1) 127 in
    Ok (Some (Origin frag_len (row_based =? 1) m_row m_col ixs vs),
        Impl (r_data r) ps2 ps3)
  else Ok (None, Impl (r_data r) (i_p2 im) (i_p3 im)).
