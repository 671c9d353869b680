(** Vocabulary of the theorems about ABY3's logarithm, independent of the program. *)
From Coq Require Import QArith.
From Verif Require Import Base.

(** The coefficients of the approximation, from degree 0 on. *)
Definition weights : list Q :=
  [(-335674972 # 100000000)%Q; (1279333646 # 100000000)%Q; (-2618955259 # 100000000)%Q; (3024596692 # 100000000)%Q; (-1730367641 # 100000000)%Q; (382474222 # 100000000)%Q].
