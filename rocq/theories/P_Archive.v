(** * P_Archive: readers and writers of the archive format *)
Require Import List Bool Arith ZArith Lia Eqdep_dec.
Require Import Verif.M_Base Verif.M_Params Verif.M_Buffer Verif.M_Archive Verif.P_Base Verif.S_Serializer.
Import ListNotations.
Open Scope Z_scope.

(** ** Words *)
Lemma word_eq (a b : word) : wbits a = wbits b -> a = b.
Proof.
  destruct a as [x p], b as [y q]; cbn. intros ->. f_equal.
  apply UIP_dec. apply bool_dec.
Qed.
Lemma wbits_range w : 0 <= wbits w < 2 ^ 32.
Proof. destruct w as [z H]; cbn. apply andb_true_iff in H. lia. Qed.
Lemma mkword_wbits w : mkword (wbits w) = w.
Proof. apply word_eq. cbn [mkword wbits]. apply Z.mod_small, wbits_range. Qed.

(** ** Little endian *)
Lemma le_length n : forall z, length (le n z) = n.
Proof. induction n; intros; cbn [le length]; auto. Qed.
Lemma le_bytes n : forall z, Forall is_byte (le n z).
Proof. induction n; intros; cbn [le]; constructor; auto. apply Z.mod_pos_bound. lia. Qed.
Lemma of_le_le n : forall z, 0 <= z < 256 ^ Z.of_nat n -> of_le (le n z) = z.
Proof.
  induction n; intros z H.
  - cbn in *. lia.
  - rewrite Nat2Z.inj_succ, Z.pow_succ_r in H by lia. cbn [le of_le].
    rewrite IHn.
    + pose proof (Z.div_mod z 256). lia.
    + split; [apply Z.div_pos; lia|]. apply Z.div_lt_upper_bound; lia.
Qed.
Lemma of_le_range l : Forall is_byte l -> 0 <= of_le l < 256 ^ Z.of_nat (length l).
Proof.
  induction 1 as [|b t Hb Ht IH]; [cbn; lia|].
  cbn [length of_le]. rewrite Nat2Z.inj_succ, Z.pow_succ_r by lia. unfold is_byte in Hb. lia.
Qed.

(** ** Readers *)
Definition exactly {X} (r : reader X) (e : list Z) (x : X) : Prop :=
  forall rest, r (e ++ rest) = Ok (x, rest).
(** what happens on a proper prefix *)
Definition cut {X} (out : forall Y, res Y) (r : reader X) (e : list Z) : Prop :=
  forall pre suf, e = pre ++ suf -> suf <> [] -> r pre = out _.
Definition throws : forall Y, res Y := fun Y => Throw.
Definition undef : forall Y, res Y := fun Y => UB.

Lemma exactly_ret {X} (x : X) : exactly (rret x) [] x.
Proof. intros rest. reflexivity. Qed.
Lemma cut_nil {X} o (r : reader X) : cut o r [].
Proof. intros pre suf H Hs. destruct pre, suf; try discriminate. congruence. Qed.
Lemma exactly_bind {X Y} (r : reader X) (f : X -> reader Y) e1 e2 x y :
  exactly r e1 x -> exactly (f x) e2 y -> exactly (rbind r f) (e1 ++ e2) y.
Proof. intros H1 H2 rest. unfold rbind. rewrite <- app_assoc, H1. cbn [bind fst snd]. apply H2. Qed.

Lemma app_cut {X} (pre suf e1 e2 : list X) : pre ++ suf = e1 ++ e2 ->
  (exists l, e1 = pre ++ l /\ l <> []) \/ (exists l, pre = e1 ++ l /\ e2 = l ++ suf).
Proof.
  revert e1. induction pre as [|a pre IH]; intros e1 H.
  - destruct e1 as [|b e1]; [right; exists []; auto|]. left. exists (b :: e1). split; [auto|discriminate].
  - destruct e1 as [|b e1]; cbn in H.
    + right. exists (a :: pre). cbn. auto.
    + injection H as <- H. destruct (IH _ H) as [(l & -> & Hl)|(l & -> & ->)].
      * left. exists l. auto.
      * right. exists l. auto.
Qed.

Definition escapes (out : forall Y, res Y) : Prop := forall X Y (f : X -> res Y), bind (out X) f = out Y.
Lemma escapes_throws : escapes throws.  Proof. intros X Y f. reflexivity. Qed.
Lemma escapes_undef : escapes undef.  Proof. intros X Y f. reflexivity. Qed.

Lemma cut_bind {X Y} o (r : reader X) (f : X -> reader Y) e1 e2 x :
  escapes o -> exactly r e1 x -> cut o r e1 -> cut o (f x) e2 -> cut o (rbind r f) (e1 ++ e2).
Proof.
  intros Ho Hx H1 H2 pre suf H Hs. unfold rbind. symmetry in H. destruct (app_cut _ _ _ _ H) as [(l & E & Hl)|(l & E & E2)].
  - rewrite (H1 _ _ E Hl). apply Ho.
  - subst pre. rewrite Hx. cbn [bind fst snd]. apply (H2 _ _ E2 Hs).
Qed.

Lemma take_app n a rest : length a = n -> take n (a ++ rest) = Some (a, rest).
Proof.
  intros <-. unfold take. rewrite app_length. rewrite (proj2 (Nat.leb_le _ _)) by lia.
  rewrite firstn_app, Nat.sub_diag, firstn_all, firstn_O, app_nil_r.
  rewrite skipn_app, skipn_all, Nat.sub_diag. reflexivity.
Qed.
Lemma take_short n s : (length s < n)%nat -> take n s = None.
Proof. intros H. unfold take. rewrite (proj2 (Nat.leb_gt _ _)) by lia. reflexivity. Qed.

Lemma exactly_le sh n z : 0 <= z < 256 ^ Z.of_nat n -> exactly (get_le sh n) (le n z) z.
Proof. intros H rest. unfold get_le. rewrite take_app by apply le_length. rewrite of_le_le; auto. Qed.
Lemma cut_le o n e : length e = n -> cut o (get_le (o _) n) e.
Proof.
  intros Hl pre suf H Hs. unfold get_le. rewrite take_short; auto.
  subst e. rewrite app_length in Hl. destruct suf; [congruence|]. cbn in Hl. lia.
Qed.
Lemma exactly_check b : b = true -> exactly (rcheck b) [] tt.
Proof. intros -> rest. reflexivity. Qed.
Lemma exactly_guard b : b = true -> exactly (rguard b) [] tt.
Proof. intros -> rest. reflexivity. Qed.

Lemma exactly_N {X} (r : reader X) (enc : X -> list Z) l :
  Forall (fun x => exactly r (enc x) x) l -> exactly (readN (length l) r) (concat (map enc l)) l.
Proof.
  induction 1 as [|x l Hx Hl IH]; cbn [length readN map concat]; [apply exactly_ret|].
  eapply exactly_bind; [exact Hx|].
  rewrite <- (app_nil_r (concat (map enc l))). eapply exactly_bind; [exact IH|]. apply exactly_ret.
Qed.
Lemma cut_N {X} o (r : reader X) (enc : X -> list Z) l : escapes o ->
  Forall (fun x => exactly r (enc x) x) l -> Forall (fun x => cut o r (enc x)) l ->
  cut o (readN (length l) r) (concat (map enc l)).
Proof.
  intros Ho H1 H2. induction l as [|x l IH]; cbn [length readN map concat]; [apply cut_nil|].
  inversion H1; subst. inversion H2; subst.
  eapply cut_bind; eauto.
  rewrite <- (app_nil_r (concat (map enc l))).
  apply (cut_bind o (readN (length l) r) _ _ _ l); auto.
  - apply exactly_N; auto.
  - apply cut_nil.
Qed.

(** Steps of a header: [exactly] and [cut] together *)
Definition both {X} o (r : reader X) e x := exactly r e x /\ cut o r e.
Lemma both_bind {X Y} o (r : reader X) (f : X -> reader Y) e1 e2 x y :
  escapes o -> both o r e1 x -> both o (f x) e2 y -> both o (rbind r f) (e1 ++ e2) y.
Proof.
  intros Ho (H1 & H2) (H3 & H4). split; [eapply exactly_bind; eauto|].
  eapply cut_bind; eauto.
Qed.
Lemma both_ret {X} o (x : X) : both o (rret x) [] x.
Proof. split; [apply exactly_ret | apply cut_nil]. Qed.
Lemma both_le o n z : 0 <= z < 256 ^ Z.of_nat n -> both o (get_le (o _) n) (le n z) z.
Proof. intros H. split; [apply exactly_le; auto | apply cut_le, le_length]. Qed.
Lemma both_byte o z : 0 <= z < 256 -> both o (get_le (o _) 1) [z] z.
Proof.
  intros H. replace [z] with (le 1 z); [apply both_le; lia|].
  cbn [le]. rewrite Z.mod_small by lia. reflexivity.
Qed.
Lemma both_check o b : b = true -> both o (rcheck b) [] tt.
Proof. intros H. split; [apply exactly_check; auto | apply cut_nil]. Qed.
Lemma both_guard o b : b = true -> both o (rguard b) [] tt.
Proof. intros H. split; [apply exactly_guard; auto | apply cut_nil]. Qed.
Lemma both_N {X} o (r : reader X) (enc : X -> list Z) l : escapes o ->
  Forall (fun x => both o r (enc x) x) l -> both o (readN (length l) r) (concat (map enc l)) l.
Proof.
  intros Ho H. split.
  - apply exactly_N. eapply Forall_impl; [|exact H]. intros a Ha; apply Ha.
  - apply cut_N; auto; eapply Forall_impl; try exact H; intros a Ha; apply Ha.
Qed.
(** prepend nothing / keep the rest *)
Lemma both_bind0 {X Y} o (r : reader X) (f : X -> reader Y) e x y :
  escapes o -> both o r [] x -> both o (f x) e y -> both o (rbind r f) e y.
Proof. intros. change e with ([] ++ e). eapply both_bind; eauto. Qed.
Lemma both_last {X Y} o (r : reader X) (g : X -> Y) e x :
  escapes o -> both o r e x -> both o (rbind r (fun a => rret (g a))) e (g x).
Proof. intros. rewrite <- (app_nil_r e). eapply both_bind; eauto. apply both_ret. Qed.

Lemma both_last_eq {X Y} o (r : reader X) (g : X -> Y) e x y :
  escapes o -> y = g x -> both o r e x -> both o (rbind r (fun a => rret (g a))) e y.
Proof. intros Ho -> H. apply both_last; auto. Qed.

(** ** Parameters *)
Lemma both_shape sh : Forall u64 sh -> Z.of_nat (length sh) < 2 ^ 60 ->
  both undef get_shape (put_shape sh) sh.
Proof.
  intros H Hl. unfold get_shape, put_shape, put_u64.
  eapply both_bind; [apply escapes_undef | apply both_le; lia |].
  apply both_bind0 with (x := tt); [apply escapes_undef| apply both_check; apply Z.ltb_lt; auto |].
  rewrite Nat2Z.id. apply both_N; [apply escapes_undef|].
  eapply Forall_impl; [|exact H]. intros a Ha. apply both_le. unfold u64 in Ha. lia.
Qed.

Lemma signed32_mod t : i32 t -> signed32 (t mod 2 ^ 32) = t.
Proof.
  unfold i32, signed32. intros H. destruct (Z_lt_ge_dec t 0).
  - rewrite <- (Z.mod_unique t (2 ^ 32) (-1) (t + 2 ^ 32)) by lia.
    rewrite (proj2 (Z.ltb_ge _ _)) by lia. lia.
  - rewrite Z.mod_small by lia. rewrite (proj2 (Z.ltb_lt _ _)) by lia. reflexivity.
Qed.

Lemma both_params p : params_rep p -> Z.of_nat (dimension p) < 2 ^ 60 ->
  both undef get_params (put_params p) p.
Proof.
  intros (H1 & H2 & H3 & H4 & H5) Hd. unfold get_params, put_params, put_u64, put_i32.
  eapply both_bind; [apply escapes_undef | apply both_shape; auto |].
  eapply both_bind; [apply escapes_undef | apply both_le; unfold u64 in *; lia |].
  eapply both_bind; [apply escapes_undef | apply both_le; unfold u64 in *; lia |].
  pose proof (Z.mod_pos_bound (wtype p) (2 ^ 32) eq_refl) as Hm.
  assert (E : p = Params (shape p) (signum p) (steps p) (signed32 (wtype p mod 2 ^ 32))).
  { rewrite signed32_mod by auto. destruct p; reflexivity. }
  apply (both_last_eq undef (get_raw 4) (fun t => Params (shape p) (signum p) (steps p) (signed32 t))
           _ (wtype p mod 2 ^ 32)); [apply escapes_undef | exact E | apply both_le; lia].
Qed.

(** ** Matrices *)
Ltac next := eapply both_bind; [apply escapes_throws | first [apply both_byte; lia | apply both_le; lia] |].
Lemma both_mat m : fits64 m -> both throws get_mat (put_mat m) m.
Proof.
  intros (Hw & Hr & Hc & Hrc). unfold get_mat, put_mat, put_u64.
  change [1; 1; 3; 4] with ([1] ++ [1] ++ [3] ++ [4]). rewrite <- !app_assoc.
  do 6 next.
  assert (Hwr : wrap64 (Z.of_nat (rows m) * Z.of_nat (cols m)) = Z.of_nat (rows m) * Z.of_nat (cols m))
    by (unfold wrap64; apply Z.mod_small; lia).
  rewrite Hwr. next.
  eapply both_bind0; [apply escapes_throws | apply both_check |].
  { cbn. apply Z.leb_le. lia. }
  eapply both_bind0; [apply escapes_throws | apply both_guard; apply Z.ltb_lt; auto |].
  rewrite !Nat2Z.id.
  assert (E : m = Mat (rows m) (cols m) (map mkword (map wbits (elts m)))).
  { rewrite map_map, (map_ext _ (fun w => w)) by apply mkword_wbits. rewrite map_id. destruct m; reflexivity. }
  apply (both_last_eq throws (readN (rows m * cols m) (get_chk 4)) (fun l => Mat (rows m) (cols m) (map mkword l))
           _ (map wbits (elts m))); [apply escapes_throws | exact E |].
  - unfold mwf in Hw. rewrite <- Hw.
    replace (length (elts m)) with (length (map wbits (elts m))) by apply map_length.
    rewrite <- (map_map wbits (le 4)). apply both_N; [apply escapes_throws|].
    apply Forall_forall. intros z Hz. apply in_map_iff in Hz. destruct Hz as (w & <- & _).
    apply both_le. pose proof (wbits_range w). lia.
Qed.

Lemma both_bytes l : Forall is_byte l -> Z.of_nat (length l) < 2 ^ 64 ->
  both throws get_bytes (put_bytes l) l.
Proof.
  intros H Hl. unfold get_bytes, put_bytes, put_u64.
  change [1; 0; 2; 1] with ([1] ++ [0] ++ [2] ++ [1]). rewrite <- !app_assoc.
  do 6 next.
  eapply both_bind0; [apply escapes_throws | apply both_check |].
  { cbn. apply Z.leb_le. lia. }
  rewrite Nat2Z.id.
  replace l with (concat (map (fun b => [b]) l)) at 2 by (clear; induction l; cbn; congruence).
  apply both_N; [apply escapes_throws|].
  eapply Forall_impl; [|exact H]. intros b Hb. apply both_byte. unfold is_byte in Hb. lia.
Qed.

Lemma both_vec {X} size_of (r : reader X) (enc : X -> list Z) l :
  0 <= size_of < 256 -> Z.of_nat (length l) < 2 ^ 64 ->
  Forall (fun x => both throws r (enc x) x) l ->
  both throws (get_vec size_of r)
    ([1; 0; 0; size_of] ++ put_u64 (Z.of_nat (length l)) ++ put_u64 (Z.of_nat (length l))
     ++ concat (map enc l)) l.
Proof.
  intros Hs Hl H. unfold get_vec, put_u64.
  change [1; 0; 0; size_of] with ([1] ++ [0] ++ [0] ++ [size_of]). rewrite <- !app_assoc.
  do 6 next.
  eapply both_bind0; [apply escapes_throws | apply both_check |].
  { rewrite (Z.eqb_refl size_of), Z.leb_refl. reflexivity. }
  rewrite Nat2Z.id. apply both_N; [apply escapes_throws|auto].
Qed.
