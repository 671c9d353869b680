(** Computations at one player in Pond (/repo/tf_encrypted/protocol/pond/pond.py). *)
From Verif Require Import Base Factory TensorModel CrtModel PondModel.

Section LOCAL.
Context (F : factory).
Notation ten := (list (felt F)).

(** [reconstruct_input] of [define_local_computation] (pond.py 571-597), on the player's machine: a public tensor is read
    from its first copy, a private one is rebuilt from its shares.  Decoding belongs to the function of
    [local_computation]. *)
Definition local_input (t : ptensor F) : M F (pv F) :=
  match unmasked t with
  | Priv x0 x1 _ => op2 Provider (vadd F) x0 x1
  | Pub v0 _ _ => op1 Provider (fun x => x) v0
  | _ => raise TypeError
  end.
(** [[reconstruct_input(x) for x in arguments]] (pond.py 608). *)
Fixpoint local_inputs (args : list (ptensor F)) : M F (list (pv F)) :=
  match args with
  | [] => ret []
  | t :: args => bind (local_input t) (fun x => bind (local_inputs args) (fun xs => ret (x :: xs)))
  end.
(** pond.py 515-624 [define_local_computation] with one output; [g] is decoding, the computation and encoding, [r] and
    [swap] the randomness of the sharing.  With [masked] the mask is computed under a unary plus (pond.py 560), which no
    backing tensor has (tensor/native.py, int100.py, int128.py, boolfactory.py define no __pos__): TypeError.  The seeds and
    the first sample drawn before that are left out. *)
Definition local_computation (g : list ten -> ten) (sc masked : bool) (r : ten) (swap : bool) (args : list (ptensor F)) : M F (ptensor F) :=
  bind (local_inputs args) (fun vs =>
  bind (fresh Provider (g (map pval vs))) (fun w =>
  bind (share_and_wrap F (pval w) r swap sc) (fun x =>
  if masked then raise TypeError else ret x))).
End LOCAL.
