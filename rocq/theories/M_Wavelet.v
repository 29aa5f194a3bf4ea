(** * M_Wavelet: sources/wavelet.cc *)
Require Import List Bool Arith ZArith QArith.
Require Import Verif.M_Base.
Import ListNotations.
Open Scope nat_scope.

(** Decimal literals: [dec k z] is z * 10^-k. *)
Definition dec (k : nat) (z : Z) : Q := Qmake z (Pos.pow 10 (Pos.of_nat k)).
Definition d14 (l : list Z) : list Q := map (dec 14) l.

(** wavelet.cc:158-217 dbwavf, the printed decimal literals. *)
Definition dbtable (wnum : Z) : list Q :=
  match wnum with
  | 1%Z => d14 [50000000000000; 50000000000000]%Z
  | 2%Z => d14 [34150635094622; 59150635094587; 15849364905378; -9150635094587]%Z
  | 3%Z => d14 [23523360389270; 57055845791731; 32518250026371;
              -9546720778426; -6041610415535; 2490874986589]%Z
  | 4%Z => d14 [16290171402562; 50547285754565; 44610006912319;
              -1978751311791; -13225358368437; 2180815023739;
              2325180053556; -749349466513]%Z
  | 5%Z => d14 [11320949129173; 42697177135271; 51216347213016;
              9788348067375; -17132835769133; -2280056594205;
              5485132932108; -441340005433; -889593505093;
              235871396920]%Z
  | 6%Z => [dec 17 7887121600145072; dec 16 3497519070376178; dec 16 5311318799408691;
          dec 17 22291566146501776; dec 17 (-15999329944606142); dec 17 (-9175903203014758);
          dec 16 689440464873723; dec 18 19461604854164663; dec 18 (-22331874165094537);
          dec 19 3916255761485779; dec 18 3378031181463938; dec 19 (-7617669028012533)]
  | 7%Z => d14 [5504971537285; 28039564181304; 51557424581833;
              33218624110566; -10175691123173; -15841750564054;
              5042323250485; 5700172257986; -2689122629486;
              -1171997078235; 887489618962; 30375749776;
              -127395235906; 25011342658]%Z
  | 8%Z => d14 [3847781105406; 22123362357624; 47774307521438;
              41390826621166; -1119286766665; -20082931639111;
              33409704628; 9103817842345; -1228195052300;
              -3117510332533; 988607964808; 618442240954;
              -344385962813; -27700227421; 47761485533;
              -8306863060]%Z
  | 9%Z => d14 [2692517479416; 17241715192471; 42767453217028;
              46477285717278; 9418477475112; -20737588089628;
              -6847677451090; 10503417113714; 2172633772990;
              -4782363205882; 17744640673; 1581208292614;
              -333981011324; -302748028715; 130648364018;
              16290733601; -17816487955; 2782275679]%Z
  | 10%Z => d14 [1885857879640; 13306109139687; 37278753574266;
              48681405536610; 19881887088440; -17666810089647;
              -13855493935993; 9006372426666; 6580149355070;
              -5048328559801; -2082962404385; 2348490704841;
              255021848393; -758950116768; 98666268244;
              140884329496; -48497391996; -8235450295;
              6617718320; -937920789]%Z
  | _ => []
  end.

Section Wavelet.
Context {T : Type} {A : Arith T}.

(** wavelet.cc:158-217 dbwavf; the asserts of lines 159-160. *)
Definition dbwavf (wnum : Z) : res (list T) :=
  let* _ := guard ((wnum <=? 10)%Z && (0 <? wnum)%Z) in
  Ok (map alit (dbtable wnum)).

(** wavelet.cc:221-242 qmf: reverse, then negate every second element
    starting at index 1 (even size) or 2 (odd size). *)
Fixpoint negate_from (first i : nat) (l : list T) : list T :=
  match l with
  | [] => []
  | x :: t =>
      (if (first <=? i) && Nat.even (i - first) then aopp x else x)
        :: negate_from first (S i) t
  end.
Definition qmf (x : list T) : list T :=
  negate_from (if Nat.even (length x) then 1 else 2) 0 (rev x).

(** wavelet.cc:219-270 Orthfilt: (Lo_D, Hi_D, Lo_R, Hi_R).  The unused sum
    W_in_sum (257-258) is dropped. *)
Definition orthfilt (w : list T) : list T * list T * list T * list T :=
  let lo_r := map asqrt2 w in
  let hi_r := qmf lo_r in
  let hi_d := rev hi_r in
  let lo_d := rev lo_r in
  (lo_d, hi_d, lo_r, hi_r).

(** [CompressedMatrix d(2, n); row(d,0) = lo; row(d,1) = hi]
    (wavelet_utils.cc:272-274, 383-385). *)
Definition filter_mat (lo hi : list T) : smat T :=
  SMat 2 (length lo) [combine (seq 0 (length lo)) lo; combine (seq 0 (length hi)) hi].

(** d(i,j) on a CompressedMatrix: 0 if there is no entry. *)
Definition sget (d : smat T) (i j : nat) : res T :=
  let* _ := guard ((i <? srows d) && (j <? scols d)) in
  let* row := rd (srow d) i in
  match find (fun e => fst e =? j) row with
  | Some e => Ok (snd e)
  | None => Ok a0
  end.

(** [blaze::subvector(v, off, n)], throws when out of range. *)
Definition subvec (v : list T) (off n : nat) : res (list T) :=
  let* _ := check (off + n <=? length v) in
  Ok (firstn n (skipn off v)).

(** wavelet.cc:321-357 dwt.  The accumulation into low_subband[i] and
    high_subband[i] is a pair of accumulators per i. *)
Definition dwt (signal : list T) (dmat : smat T) : res (list T * list T) :=
  let n := length signal in
  let* _ := guard (scols dmat <=? n) in                                   (* 324 *)
  if srows dmat =? 2 then                                                 (* 330 *)
    let* lh := tabulateM (n / 2) (fun i =>                                (* 333 *)
      loop (scols dmat) 0 (fun j acc =>                                   (* 334 *)
        let index := i * 2 + j in
        let index := if n <=? index then index - n else index in          (* 337 *)
        let* s := rd signal index in
        let* d0 := sget dmat 0 j in
        let* d1 := sget dmat 1 j in
        Ok (aadd (fst acc) (amul s d0), aadd (snd acc) (amul s d1))) (a0, a0)) in
    Ok (map fst lh, map snd lh)
  else if n =? scols dmat then                                            (* 345 *)
    let* encoded := spmv dmat signal in
    let* low := subvec encoded 0 (n / 2) in
    let* high := subvec encoded (n / 2) (n / 2) in
    Ok (low, high)
  else Ok ([], []).                                                       (* 353 *)

(** wavelet.cc:359-399 idwt.  [padding_size = columns - 2] and
    [i0 = low.size() - padding_size/2] are size_t: when they underflow the
    first access low_subband[k] is far out of range, hence the guards (the
    loop body runs only if low is not empty). *)
Definition idwt (low high : list T) (dmat : smat T) : res (list T) :=
  let n := length low in
  let* _ := guard (n =? length high) in                                   (* 363 *)
  if srows dmat =? 2 then                                                 (* 368 *)
    let padding_size := scols dmat - 2 in                                 (* 369 *)
    let i0 := n - padding_size / 2 in                                     (* 371 *)
    tabulateM (n * 2) (fun i =>                                           (* 372 *)
      let* _ := guard ((2 <=? scols dmat) && (padding_size / 2 <=? n)) in
      let j0 := if Nat.even i then 1 else 0 in                            (* 373-378 *)
      loop ((scols dmat + 1) / 2) 0 (fun jj acc =>                        (* 379: j += 2 *)
        let j := 2 * jj in
        let k := i0 + i / 2 + j / 2 in                                    (* 380 *)
        let k := if n <=? k then k - n else k in                          (* 381 *)
        let* lk := rd low k in
        let* hk := rd high k in
        let* d0 := sget dmat 0 (j0 + j) in
        let* d1 := sget dmat 1 (j0 + j) in
        Ok (aadd (aadd acc (amul d0 lk)) (amul d1 hk))) a0)
  else spmv dmat (low ++ high).                                           (* 388-396 *)

(** wavelet.cc:22-41 and 44-63: one row i of the periodized matrix for the
    (reversed) filter [f]; [size] is mat.columns(). *)
Definition daub_row (size : nat) (f : list T) (i : nat) : res (list (nat * T)) :=
  let ci := size - 2 * i in
  let ci := if length f <? ci then 0 else ci in
  let* st := loop (length f) 0 (fun _ (st : nat * list (nat * T)) =>
      let ci := fst st in
      let* ci := if length f <=? ci
                 then let* _ := guard (0 <? length f) in Ok (ci mod length f)
                 else Ok ci in
      let j := i * 2 + ci in
      let j := if size <=? j then j mod size else j in
      let* v := rd f ci in
      let* row := append_row size (snd st) j v in
      Ok (S ci, row)) (ci, []) in
  Ok (snd st).

(** wavelet.cc:7-63, 135 DaubechiesMat with Padding::Periodized (the only
    value the library itself uses, default argument in wavelet.h).  Lo_D and
    Hi_D are reversed in place before use (15-16). *)
Definition daubechies_mat (size : nat) (order : Z) : res (smat T) :=
  let* _ := guard (Z.even order) in                                       (* 9 *)
  let* _ := guard (order <=? Z.of_nat size)%Z in                          (* 10 *)
  let* w := dbwavf (order / 2) in
  let '(lo_d, hi_d, _, _) := orthfilt w in
  let lo := rev lo_d in
  let hi := rev hi_d in
  let* rl := tabulateM (size / 2) (fun i => daub_row size lo i) in
  let* rh := tabulateM (size / 2) (fun i => daub_row size hi i) in
  (* rows that are never filled (odd size) stay empty *)
  Ok (SMat size size (rl ++ rh ++ repeat [] (size - (size / 2 + size / 2)))).

(** wavelet.cc:271-298 dwt2s *)
Definition dwt2s (x : mat T) (dw dh : smat T) : res (mat T) :=
  let* _ := guard ((scols dw =? srows dw) && (scols dh =? srows dh)
                   && (srows dw =? cols x) && (srows dh =? rows x)) in    (* 274-277 *)
  (* 282-287: split by rows *)
  let* rws := tabulateM (rows x) (fun ri =>
      let* r := mrow x ri in
      let* rs := spmv dw r in
      let* _ := check (length rs =? cols x) in Ok rs) in
  let intermediate := Mat (rows x) (cols x) (concat rws) in
  (* 289-295: split by columns *)
  let* cls := tabulateM (cols x) (fun ci =>
      let* c := mcol intermediate ci in
      let* cs := spmv dh c in
      let* _ := check (length cs =? rows x) in Ok cs) in
  mbuildM (rows x) (cols x) (fun i j => let* c := rd cls j in rd c i).

(** wavelet.cc:137-156 dwt2: (ll, lh, hl, hh) *)
Definition dwt2 (x : mat T) (dw dh : smat T) : res (mat T * mat T * mat T * mat T) :=
  let* r := dwt2s x dw dh in
  let sw := scols dw / 2 in
  let sh := scols dh / 2 in
  let* ll := msub r 0 0 sh sw in
  let* lh := msub r sh 0 sh sw in
  let* hl := msub r 0 sw sh sw in
  let* hh := msub r sh sw sh sw in
  Ok (ll, lh, hl, hh).

(** wavelet.cc:300-319 idwt2 *)
Definition idwt2 (ll lh hl hh : mat T) (dw dh : smat T) : res (mat T) :=
  let* _ := guard ((rows ll =? rows lh) && (rows ll =? rows hl) && (rows ll =? rows hh)
                   && (cols ll =? cols lh) && (cols ll =? cols hl) && (cols ll =? cols hh)
                   && (srows dw =? cols ll * 2) && (srows dh =? rows ll * 2)) in
  let blit m r0 c0 s := mblit m r0 c0 (rows s) (cols s) (fun i j => some (mget s i j)) in
  let* m := blit (mundef (srows dh) (srows dw)) 0 0 ll in
  let* m := blit m (rows ll) 0 lh in
  let* m := blit m 0 (cols ll) hl in
  let* m := blit m (rows ll) (cols ll) hh in
  let* out := mfreeze m in
  dwt2s out dw dh.

End Wavelet.
