(** * T_Object2: property C116, programs that use buffers as documented never fail *)
Require Import List Bool Arith ZArith Lia.
Require Import Verif.M_Base Verif.M_Params Verif.M_Buffer Verif.M_View Verif.M_Object.
Require Import Verif.S_Params Verif.S_Buffer Verif.S_Object Verif.S_Object2.
Require Import Verif.P_Base Verif.P_Api Verif.P_Api2 Verif.P_Object Verif.P_Object2 Verif.P_Object3.
Import ListNotations.
Open Scope nat_scope.

(** ** a proper history runs to its end; every call succeeds, except that a
    constructor throws for illegal parameters, a wrong number of channels or
    lack of memory; every buffer it leaves is whole, and composes at every
    scale factor up to the steps once all its channels are decomposed *)
Theorem C116_proper (T : Type) (A : Arith T) (l : list (op T)) : properly empty_world l ->
  exists h os, run empty_heap l = Ok (h, os) /\ length os = length l /\
    (forall n r o, nth_error os n = Some r -> nth_error l n = Some o ->
       (r = Did true \/ exists b, r = Saw b /\ whole b) \/ r = Raised /\ may_raise o) /\
    (forall i b, holds h i = Some (Full b) -> whole b /\
       forall sf, Forall (has_layout (bpar b)) (bdec b) -> (0 <= sf <= steps (bpar b))%Z ->
         exists out, compose b sf = Ok (true, out) /\ Z.of_nat (length out) = signum (bpar b)).
Proof.
  intros P. destruct (proper_run l empty_heap empty_world empty_ok good_empty P) as (h & w & os & E & K & G & L & F).
  exists h, os. split; [exact E|]. split; [exact L|]. split; [exact F|]. intros i b HB. rewrite (ok_holds h w i K) in HB.
  pose proof (good_whole w G i b HB) as HW. split; [exact HW|]. intros sf HL Hsf. destruct HW as (HA & HN & _).
  eexists. split; [apply (compose_ok (bpar b) HA); auto; rewrite Forall_forall in HL; exact HL|]. rewrite map_length. exact HN.
Qed.
Print Assumptions C116_proper.

Lemma properly_next (T : Type) (A : Arith T) (w w' : world T) o r l : sstep w o = Ok (w', r) -> proper w o -> properly w' l -> properly w (o :: l).
Proof. intros E P Q. split; [exact P|]. intros w2 r2 E2. rewrite E in E2. injection E2 as <- _. exact Q. Qed.
(** two buffers, one of them refused first; one decomposed into, a view of it
    cast to a third, which is moved over the first; a reference into it written
    through; all destroyed but one *)
Definition ex_p : params := Params [2]%Z 2 0 1.
Definition ex_l : list (op Z) :=
  [ONew true (Params [2]%Z 2 5 1); ONew true ex_p; OCopy true 0;
   ODecompose 1 [mcolvec [1%Z; 2%Z]; mcolvec [3%Z; 4%Z]] null_denoiser;
   OView 1 (View 1 1 true); OViewCast true 0; OLook 2; OMoveAssign 0 2;
   ORef 0 0; ORefWrite 0 [mcolvec [7%Z; 8%Z]]; ODestroy 1; ODestroy 2].
Lemma ex_acc n : (0 <= n <= 2)%Z -> accepted (Params [2]%Z n 0 1).
Proof. intros Hn. unfold accepted, params_rep, legal, u64, i32; cbn [shape signum steps wtype length]; repeat split; auto; repeat constructor; lia. Qed.
Lemma ex_layout n (x y : Z) : has_layout (Params [2]%Z n 0 1) [mcolvec [x; y]].
Proof.
  split; [reflexivity|]. split; [intros s i m Hs; cbn in Hs; lia|]. intros m E. cbn in E. injection E as <-. repeat split.
Qed.
Ltac next := eapply properly_next; [vm_compute; reflexivity| |].
Example C116_case : properly (A := Z_arith) empty_world ex_l.
Proof.
  pose proof (ex_acc 2 ltac:(lia)) as HA. unfold ex_l.
  next; [cbn; unfold params_rep, u64, i32; cbn [shape signum steps wtype]; repeat split; auto; repeat constructor; lia|].
  next; [cbn; destruct HA as (H1 & H2 & H3 & H4); repeat split; auto; try apply H1; lia|].
  next; [cbn; eexists; reflexivity|].
  next; [cbn; eexists; split; [reflexivity|]; cbn; repeat split; auto; try lia; repeat constructor|].
  next; [cbn; eexists; split; [reflexivity|discriminate]|].
  next; [cbn; do 3 eexists; split; [reflexivity|]; split; [reflexivity|]; unfold in_range; cbn; lia|].
  next; [cbn; eexists; reflexivity|].
  next; [cbn; split; eexists; (split; [reflexivity|discriminate])|].
  next; [cbn; eexists; split; [reflexivity|]; cbn; lia|].
  next; [cbn; do 3 eexists; split; [reflexivity|]; split; [reflexivity|]; right; apply ex_layout|].
  next; [cbn; eexists; split; [reflexivity|discriminate]|].
  next; [cbn; eexists; split; [reflexivity|discriminate]|].
  exact I.
Qed.
