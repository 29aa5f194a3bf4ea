(** * S_Cycle: a signal decomposed and composed again and again. *)
Require Import List Bool Arith ZArith Reals.
Require Import Verif.M_Base Verif.M_Params Verif.M_Buffer Verif.M_Float Verif.M_Binary32.
Import ListNotations.
Open Scope R_scope.

(** n times: decompose into the buffer, compose, and let [between] happen to
    every channel *)
Fixpoint cycles {T} {A : Arith T} (between : mat T -> mat T) (n : nat) (b : buffer T) (data : list (mat T))
  : res (buffer T * list (mat T)) :=
  match n with
  | O => Ok (b, data)
  | S n' => let* r := decompose b data null_denoiser in
            let* o := compose (snd r) 0 in
            if fst r && fst o then cycles between n' (snd r) (map between (snd o)) else Throw
  end.

(** samples up to B, n cycles each of which moves them by r times their bound
    and e: at most this much, little more than n times one cycle *)
Definition drift (r e : R) (n : nat) (B : R) : R := INR n * (1 + r) ^ n * (r * B + e).

(** stored as an 8-bit picture and loaded again, without further loss *)
Definition as_levels (m : mat f32) : mat f32 := Mat (rows m) (cols m) (map (fun x => of_pixel (to_pixel x)) (elts m)).
