(** * P_CacheFail: the cache stays correct when memory runs out *)
Require Import List Bool Arith ZArith.
Require Import Verif.M_Base Verif.M_Params Verif.M_Buffer Verif.M_View Verif.M_Cache Verif.S_Cache Verif.M_CacheFail Verif.S_CacheFail.
Require Import Verif.P_Base Verif.P_Cache.
Import ListNotations.

Section F.
Context {T : Type} {A : Arith T}.

Lemma generate_true (c : cache T) padded p : generate_matrices_m true c padded p = generate_matrices c padded p.
Proof. reflexivity. Qed.
Lemma generate_trans_true (c : cache T) padded p : generate_trans_matrices_m true true c padded p = generate_trans_matrices c padded p.
Proof. reflexivity. Qed.

(** a call of GenerateMatrices is as with enough memory, or changes nothing and
    ends without a result *)
Lemma generate_m_cases mem (c : cache T) padded p :
  generate_matrices_m mem c padded p = generate_matrices c padded p \/
  exists r, generate_matrices_m mem c padded p = (c, r) /\ (forall a, r <> Ok a).
Proof.
  unfold generate_matrices_m, generate_matrices. destruct (tfind p (plain c)); [auto|].
  destruct (gen_matrices padded p); cbn [cbind]; auto.
  destruct mem; cbn [negb]; [auto|]. right. exists Throw. split; [reflexivity|discriminate].
Qed.

Lemma generate_m_good mem (c : cache T) padded p : good c -> calc_padded (wtype p) (shape p) (steps p) = Ok padded ->
  good (fst (generate_matrices_m mem c padded p)).
Proof.
  intros Hg Hp. destruct (generate_m_cases mem c padded p) as [E|(r & E & _)]; rewrite E; [|exact Hg].
  pose proof (generate_ok c padded p Hg Hp) as H. destruct (generate_matrices c padded p). apply H.
Qed.

Lemma generate_trans_m_good mem mem2 (c : cache T) padded p : good c -> calc_padded (wtype p) (shape p) (steps p) = Ok padded ->
  good (fst (generate_trans_matrices_m mem mem2 c padded p)).
Proof.
  intros Hg Hp. pose proof (generate_trans_ok c padded p Hg Hp) as HT.
  pose proof (generate_m_good mem c padded p Hg Hp) as HM.
  unfold generate_trans_matrices_m, generate_trans_matrices in *.
  destruct (tfind p (transposed c)); [exact Hg|].
  destruct (generate_m_cases mem c padded p) as [E|(r & E & Hr)]; rewrite E in *.
  - destruct (generate_matrices c padded p) as (c1, [a| |]); cbn [cbind fst] in *; auto.
    destruct (rd (cells c1) a); cbn [cbind fst] in *; auto.
    destruct mem2; cbn [negb]; [|exact HM].
    destruct (tinsert p (length (tcells c1)) (transposed c1)). apply HT.
  - destruct r as [a| |]; [exfalso; apply (Hr a); reflexivity|exact Hg|exact Hg].
Qed.

Lemma cache_left_good back mem mem2 (c : cache T) p : good c -> good (cache_left back mem mem2 c p).
Proof.
  intros Hg. unfold cache_left. destruct (calc_padded _ _ _) as [padded| |] eqn:E; auto.
  destruct back; [apply generate_trans_m_good; auto|apply generate_m_good; auto].
Qed.

Lemma history_m_ok cs : forall h, good h -> history_m h cs = history_fresh_m cs.
Proof.
  induction cs as [|[c|back mem mem2 p] cs IH]; intros h Hg; cbn [history_m history_fresh_m]; auto.
  - pose proof (cached_ok h c Hg) as H. destruct (cached h c) as [h' r]. destruct H as (H1 & ->).
    destruct (fresh c); auto; f_equal; auto.
  - f_equal. apply IH, cache_left_good, Hg.
Qed.

End F.
