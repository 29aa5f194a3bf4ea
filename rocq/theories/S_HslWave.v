(** * S_HslWave: how many steps a colour survives in HSL *)
Require Import List Bool Arith ZArith.
Require Import Verif.M_Base Verif.M_Params Verif.M_Padding Verif.M_Buffer Verif.S_Params Verif.S_Padding Verif.S_Buffer Verif.S_Exact Verif.S_Round Verif.S_Stable Verif.S_Local.
(** few enough steps for an error below an 8-bit level after the conversion to
    RGB: up to 5 for DB1, 1 for the others *)
Definition colours_kept (p : params) : Prop :=
  (passes p * nsteps p * window p <= if (wtype p =? 1)%Z then 400 else 55)%nat.
