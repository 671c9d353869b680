(** What variables, players and the active protocol should be. *)
From Coq Require Import ZArith List Bool String NArith.
From Verif Require Import Base StateModel.
Import ListNotations.

(** The tensor on the right of an assignment, as the variables were defined. *)
Definition right_side (vs0 : list variable) (s : source) : option tensor :=
  match s with FromTensor t => Some t | FromVariable j => option_map as_tensor (nth_error vs0 j) end.
(** An assignment is legal: same kind of tensor (share types aside), same scaling. *)
Definition legal (v : variable) (t : tensor) : Prop :=
  scaled t = vscaled v /\
  match cls t, vcls v with
  | Public2, Public2 | Private2, Private2 | Public3, Public3 | Private3 _, Private3 _ => True | _, _ => False end.
(** [last_assigned vs0 v i l c c']: of the legal assignments to variable [i] (defined as [v]) in [l], the last one
    had the contents [c']; with none, [c' = c]. *)
Inductive last_assigned (vs0 : list variable) (v : variable) (i : nat) : list stmt -> list (list Z) -> list (list Z) -> Prop :=
| la_nil c : last_assigned vs0 v i [] c c
| la_hit src t l c c' : right_side vs0 src = Some t -> legal v t -> last_assigned vs0 v i l (cells t) c' ->
    last_assigned vs0 v i (Assign i src :: l) c c'
| la_illegal src t l c c' : right_side vs0 src = Some t -> ~ legal v t -> last_assigned vs0 v i l c c' ->
    last_assigned vs0 v i (Assign i src :: l) c c'
| la_unknown src l c c' : right_side vs0 src = None -> last_assigned vs0 v i l c c' ->
    last_assigned vs0 v i (Assign i src :: l) c c'
| la_other k src l c c' : k <> i -> last_assigned vs0 v i l c c' -> last_assigned vs0 v i (Assign k src :: l) c c'
| la_read k l c c' : last_assigned vs0 v i l c c' -> last_assigned vs0 v i (Read k :: l) c c'
| la_use k l c c' : last_assigned vs0 v i l c c' -> last_assigned vs0 v i (Use k :: l) c c'.

(** Protocols entered inside a piece of code. *)
Inductive enters (p : N) : code -> Prop :=
| enters_here body : enters p (With p body)
| enters_inside q body c : In c body -> enters p c -> enters p (With q body).
