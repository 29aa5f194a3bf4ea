(** * P_ThrowImport: imports that an exception leaves *)
Require Import List Bool Arith ZArith Lia.
Require Import Verif.M_Base Verif.M_Params Verif.M_Buffer Verif.M_View Verif.M_Denoise Verif.M_Equal Verif.M_Image Verif.M_Throw Verif.M_ThrowImport.
Require Import Verif.S_Params Verif.S_Buffer Verif.S_Throw.
Require Import Verif.P_Base Verif.P_Api2 Verif.P_Image Verif.P_Throw2.
Import ListNotations.
Open Scope nat_scope.

Section T.
Context {T : Type} {A : Arith T}.

Lemma import_throw p (b b0 : buffer T) data im den mem cd start k :
  accepted p -> reachable p b ->
  icdecode cd data = Ok (true, im) -> im <> [] -> Forall (shaped p) im ->
  (0 <= start)%Z -> (start + Z.of_nat (length im) <= signum p)%Z -> (signum p < 2 ^ 31)%Z ->
  import_string b data null_denoiser cd start = Ok (kOk, b0) ->
  k <= length im * per_write p ->
  (forall j, j < k -> written_from p den mem b0 (Z.to_nat start) j <> None) ->
  (k < length im * per_write p -> written_from p den mem b0 (Z.to_nat start) k = None) ->
  exists b', import_string_e b data den mem cd start =
      Ok (if k <? length im * per_write p then Throws else Returns kOk, b') /\
    left_from p den mem (Z.to_nat start) (length im) b b0 b' k.
Proof.
  intros HA HR Hd Hne HS Hs Hr Hb H0 Hk H1 H2. unfold import_string in H0. unfold import_string_e. rewrite Hd in *.
  cbn [bind fst snd] in H0. rewrite !to_int32_id in * by lia.
  apply bind_ok in H0 as ((r & b0') & E0 & H0). destruct r; cbn [fst snd] in H0; [|discriminate]. inversion H0; subst b0'.
  destruct (throw_view p (View start (Z.of_nat (length im)) true) b b0 im den mem k HA HR) as (b' & E & L);
    cbn [vstart vcount vmutable]; auto.
  - unfold in_range. cbn [vstart vcount]. lia.
  - destruct im; [congruence|cbn; lia].
  - rewrite E. cbn [bind fst snd]. exists b'. split; [|exact L]. destruct (k <? _); reflexivity.
Qed.

Lemma import_no_write (b b0 : buffer T) data den mem cd start st :
  import_string b data null_denoiser cd start = Ok (st, b0) -> st <> kOk ->
  import_string_e b data den mem cd start = Ok (Returns st, b) /\ b0 = b.
Proof.
  unfold import_string, import_string_e. intros H Hst. apply bind_ok in H as ((ok & im) & Ed & H). rewrite Ed. cbn [fst snd] in H.
  destruct ok; [|inversion H; auto].
  apply bind_ok in H as ((r & b1) & Ev & H). destruct r; cbn [fst snd] in H; inversion H; subst; [congruence|].
  destruct (view_refused _ _ _ _ den mem Ev) as (E & ->). rewrite E. auto.
Qed.

Lemma import_codec_throws (b : buffer T) data den mem cd start :
  icdecode cd data = Throw -> import_string_e b data den mem cd start = Ok (Throws, b).
Proof. unfold import_string_e. intros ->. reflexivity. Qed.
End T.
