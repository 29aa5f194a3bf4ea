(** * T_Gen: property C117, buffers stored and read again and again *)
Require Import List Bool Arith ZArith Lia.
Require Import Verif.M_Base Verif.M_Params Verif.M_Buffer Verif.M_Archive Verif.M_Serializer.
Require Import Verif.S_Params Verif.S_Buffer Verif.S_Serializer Verif.S_Gen.
Require Import Verif.P_Blob Verif.P_Gen.
Import ListNotations.
Open Scope Z_scope.
Implicit Types (cd : codec) (legacy : buffer word -> list Z -> res (option (buffer word))).

(** ** only the coarsest of the levels used counts, not how often or in which
    order; with levels 0 and 1 only and a codec lossless at full precision
    nothing is lost *)
Theorem C117_coarsest cd legacy q levels b :
  nested q -> (forall s, 1 <= s <= 31 -> codec_faithful cd (33 - s) (q s) /\ codec_total cd (33 - s)) ->
  storable b -> indexable b -> int_sides b -> no_empty_subband b -> Forall (fun sf => 0 <= sf) levels ->
  exists b', generations cd legacy levels b = Ok (Some b') /\ same_buffer b' (map_buffer (q (coarsest levels)) b).
Proof. intros HQ HC H1 H2 H3 H4 HL. exact (coarsest_only cd legacy q HQ HC levels b (conj H1 (conj H2 (conj H3 H4))) HL). Qed.
Print Assumptions C117_coarsest.
(** ** what was stored twice at a level is read back bit for bit at that level *)
Theorem C117_settled cd legacy q b sf b2 blob :
  nested q -> (forall s, 1 <= s <= 31 -> codec_faithful cd (33 - s) (q s) /\ codec_total cd (33 - s)) ->
  storable b -> indexable b -> int_sides b -> no_empty_subband b -> 0 <= sf ->
  generations cd legacy [sf; sf] b = Ok (Some b2) -> serialize cd b2 sf = Ok (Some blob) ->
  parse cd legacy blob = Ok (Some b2).
Proof. intros HQ HC H1 H2 H3 H4. exact (settled cd legacy q HQ HC b sf b2 blob (conj H1 (conj H2 (conj H3 H4)))). Qed.
Print Assumptions C117_settled.
(** the plain codec at all levels; three generations *)
Example C117_codec : exists q, nested q /\ forall s, 1 <= s <= 31 -> codec_faithful plain_codec (33 - s) (q s) /\ codec_total plain_codec (33 - s).
Proof. exists (fun s => clear_low (if s =? 0 then 32 else 33 - s)). split; [exact plain_nested|exact plain_levels]. Qed.
Definition C117_buffer : buffer word := Buffer (Params [8] 1 1 1)
  [[mcolvec (map mkword [0; 2147483648; 5; 2139095041]); mcolvec (map mkword [0; 7; 0; 9])]].
Example C117_case legacy : generations plain_codec legacy [2; 40; 3] C117_buffer =
    Ok (Some (map_buffer (fun x => if is_zero x then word_zero else clear_low 2 x) C117_buffer)) /\
  generations plain_codec legacy [2; 3; 2] C117_buffer = Ok (Some (Buffer (Params [8] 1 1 1)
    [[mcolvec (map mkword [0; 0; 4; 2139095040]); mcolvec (map mkword [0; 4; 0; 8])]])) /\ coarsest [2; 3; 2] = 3.
Proof. split; [vm_compute; reflexivity|]. split; [vm_compute; reflexivity|reflexivity]. Qed.
