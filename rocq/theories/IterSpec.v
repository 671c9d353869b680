(** Vocabulary of the theorems about [iterate], independent of the program. *)
From Verif Require Import Base TensorModel Aby3Model Aby3Spec IterModel.

(** Entry [e] of row [i]: its six shares on the machines that hold them. *)
Definition cell (x : mat) (i e : nat) : priv :=
  let at_ (l : list row) := nth e (nth i l []) 0 in
  MkPr (MkV S0 (at_ (m00 x))) (MkV S0 (at_ (m01 x))) (MkV S1 (at_ (m10 x))) (MkV S1 (at_ (m11 x))) (MkV S2 (at_ (m20 x))) (MkV S2 (at_ (m21 x)))
    (msc x) (mty x) (mfc x).
(** The rows of [x] are well-formed sharings of these rows: arithmetic over [n]-bit words, or boolean over values of [f]. *)
Definition shape_ok (x : mat) (vs : list row) : Prop :=
  Forall (fun l => Forall2 (fun r v : row => length r = length v) l vs) [m00 x; m01 x; m10 x; m11 x; m20 x; m21 x].
Definition holds (P : priv -> Z -> Prop) (x : mat) (vs : list row) : Prop :=
  shape_ok x vs /\ forall i e, (i < length vs)%nat -> (e < length (nth i vs []))%nat -> P (cell x i e) (nth e (nth i vs []) 0).
(** Rows number [s 0], [s 1], ... [s (b - 1)]. *)
Definition chosen (vs : list row) (s : nat -> nat) (b : nat) : list row := map (fun i => nth (s i) vs []) (seq 0 b).
