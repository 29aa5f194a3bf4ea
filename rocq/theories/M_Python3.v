(** * M_Python3: serialize, parse and comparison of the Python module
    (python/src/wavelet_buffer.cc) *)
Require Import List Bool Arith ZArith.
Require Import Verif.M_Base Verif.M_Params Verif.M_Buffer Verif.M_Archive Verif.M_Equal Verif.M_Serializer.
Import ListNotations.
Open Scope Z_scope.

Section Serialize.
Variable cd : codec.
Variable legacy : buffer word -> list Z -> res (option (buffer word)).

(** wavelet_buffer.cc:202-212 serialize.  pybind11 raises for an argument that
    is no int; Serialize (wavelet_buffer.h:123) takes a uint8_t.  None is an
    exception. *)
Definition py_serialize (b : buffer word) (level : Z) : res (option (list Z)) :=
  if (- 2 ^ 31 <=? level) && (level <? 2 ^ 31) then serialize cd b (level mod 256) else Ok None.

(** wavelet_buffer.cc:172 parse: the std::unique_ptr that Parse returns; None
    is Python's None, an exception from inside the library is Throw *)
Definition py_parse (blob : list Z) : res (option (buffer word)) := parse cd legacy blob.
End Serialize.

(** wavelet_buffer.cc:214-215 __eq__; there is no __ne__, so a != b is
    [not a == b] *)
Definition py_eq {T} (eq : T -> T -> bool) (a b : buffer T) : bool := buffer_eqb eq a b.
Definition py_ne {T} (eq : T -> T -> bool) (a b : buffer T) : bool := negb (py_eq eq a b).
