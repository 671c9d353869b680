(** Model of how Pond's tensors cross into the graph of a [tfe.function] and back
    (/repo/tf_encrypted/protocol/pond/pond.py, protocol/protocol.py, tensor/__init__.py). *)
From Verif Require Import Base CrtModel.

(** Backing factories: [n]-bit words (native.py 30-627), integers modulo [m] in such words (native.py 30-34, 79-98; the primes
    of securenn.py 80-85), the odd ring (securenn/odd_tensor.py) and the CRT tensors with their moduli (int100.py).  The 128-bit
    words are left out: [to_native] turns them into floats (int128.py 70-76, 286-287). *)
Inductive pfac := PN (n : Z) | PMod (n m : Z) | POdd | PCrt (ms : list Z).
(** [factory.nbits]: native.py 103-105; the odd and the CRT factory have no such attribute (odd_tensor.py, int100.py,
    factory.py). *)
Definition nbits (f : pfac) : option Z := match f with PN n => Some n | PMod n _ => Some n | POdd => None | PCrt _ => None end.
(** One entry: a word, or its residues (native.py 272-277, int100.py 414-422). *)
Definition word := list Z.
(** [to_native] (native.py 287-288, 71-77: the word itself; the odd tensors of odd_tensor.py have no such method, which raises AttributeError like
    their missing [nbits] below; int100.py 444-445 and 368-374; [est] is the
    rounded float sum of CrtModel). *)
Definition to_native (est : list Z -> Z) (f : pfac) (w : word) : option word :=
  match f with PCrt ms => match crt_to_native est ms w with Some z => Some [z] | None => None end | _ => Some w end.
(** Public, private and masked tensors (pond.py 1858-1945, 1951-2018, 2029-2104): factory, flag and words; every word is on the
    machine it belongs to, which [from_bone] keeps (pond.py 678-721). *)
Inductive ptn :=
| TPub (f : pfac) (sc : bool) (v0 v1 : word)
| TPriv (f : pfac) (sc : bool) (s0 s1 : word)
| TMask (f : pfac) (sc : bool) (usc : bool) (u0 u1 a a0 a1 al0 al1 : word).
(** Bones (pond.py 1631-1633, 1854-1855, 1947-1948, 2020-2027): flag, number of bits, words. *)
Inductive pbone :=
| NPub (sc : bool) (k : Z) (v0 v1 : word)
| NPriv (sc : bool) (k : Z) (s0 s1 : word)
| NMask (sc : bool) (k : Z) (usc : bool) (u0 u1 a a0 a1 al0 al1 : word).
(** Results and exceptions (pond.py 678-721, 1930-1938). *)
Inductive outcome (A : Type) := Done (a : A) | AttributeError | KeyError | AssertionError.
Arguments Done {A} _.
Arguments AttributeError {A}.
Arguments KeyError {A}.
Arguments AssertionError {A}.
(** Python sequencing (pond.py 678-721). *)
Definition obind {A B} (m : outcome A) (k : A -> outcome B) : outcome B :=
  match m with Done a => k a | AttributeError => AttributeError | KeyError => KeyError | AssertionError => AssertionError end.
(** The words of a tensor as native tensors (pond.py 1931-1935, 2007-2011, 2084-2091). *)
Fixpoint natives (est : list Z -> Z) (f : pfac) (ws : list word) : outcome (list word) :=
  match ws with
  | [] => Done []
  | w :: ws => match to_native est f w with
    | Some v => obind (natives est f ws) (fun vs => Done (v :: vs))
    | None => AssertionError
    end
  end.
(** pond.py 1930-1938, 2006-2014, 2083-2101 [bone]; the unmasked tensor of a masked one has the same factory (2029-2068). *)
Definition bone (est : list Z -> Z) (t : ptn) : outcome pbone :=
  let bits f (k : Z -> outcome pbone) := match nbits f with Some n => k n | None => AttributeError end in
  match t with
  | TPub f sc v0 v1 => obind (natives est f [v0; v1]) (fun l =>
      match l with [v0; v1] => bits f (fun n => Done (NPub sc n v0 v1)) | _ => AssertionError end)
  | TPriv f sc s0 s1 => obind (natives est f [s0; s1]) (fun l =>
      match l with [s0; s1] => bits f (fun n => Done (NPriv sc n s0 s1)) | _ => AssertionError end)
  | TMask f sc usc u0 u1 a a0 a1 al0 al1 => obind (natives est f [a; a0; al0; a1; al1; u0; u1]) (fun l =>
      match l with [a; a0; al0; a1; al1; u0; u1] => bits f (fun n => Done (NMask sc n usc u0 u1 a a0 a1 al0 al1)) | _ => AssertionError end)
  end.
(** [factories[k]] (tensor/__init__.py 24-36) for the numbers of bits that [bone] gives. *)
Definition factories (k : Z) : outcome pfac :=
  if existsb (Z.eqb k) [8; 16; 32; 64] then Done (PN k) else KeyError.
(** pond.py 678-721 [from_bone]. *)
Definition from_bone (b : pbone) : outcome ptn :=
  match b with
  | NPub sc k v0 v1 => obind (factories k) (fun f => Done (TPub f sc v0 v1))
  | NPriv sc k s0 s1 => obind (factories k) (fun f => Done (TPriv f sc s0 s1))
  | NMask sc k usc u0 u1 a a0 a1 al0 al1 => obind (factories k) (fun f => Done (TMask f sc usc u0 u1 a a0 a1 al0 al1))
  end.
(** A tensor as the compiled function sees it, and as the caller gets a result back (protocol.py 125-142, 175-191). *)
Definition cross (est : list Z -> Z) (t : ptn) : outcome ptn := obind (bone est t) from_bone.
(** protocol.py 183-191 under Pond, with tensors as arguments and results in lists: the function runs on the crossed
    arguments (172-181), and its results cross back. *)
Fixpoint cross_all (est : list Z -> Z) (ts : list ptn) : outcome (list ptn) :=
  match ts with
  | [] => Done []
  | t :: ts => obind (cross est t) (fun t => obind (cross_all est ts) (fun ts => Done (t :: ts)))
  end.
(** protocol.py 165-193 [function], outside debug mode.  [func] is the undecorated function, for fixed random numbers. *)
Definition compiled (est : list Z -> Z) (func : list ptn -> outcome (list ptn)) (args : list ptn) : outcome (list ptn) :=
  obind (cross_all est args) (fun a => obind (func a) (cross_all est)).
