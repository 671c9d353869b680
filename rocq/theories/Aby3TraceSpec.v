(** Vocabulary for the freshness of masks and for what servers see. *)
From Verif Require Import Base TensorModel Aby3Model Aby3Spec Aby3NetModel Aby3TraceModel.

(** Every expansion of a seed: by which machine, from which seed and nonce, which part. *)
Definition use : Type := dev * key * Z * nat.
Definition uses (l : list ev) : list use :=
  flat_map (fun e => match e with Seed d _ k n lane => [(d, k, n, lane)] | Saw _ _ => [] end) l.
Definition log_of {A} (r : state * list ev * res A) : list ev := snd (fst r).
Definition state_of {A} (r : state * list ev * res A) : state := fst (fst r).
Definition seed_of (u : use) : key * Z := match u with (_, k, n, _) => (k, n) end.

(** Programs a user can write with the operations of the protocol (all but the cheetah truncation): results may be inspected and
    used in any later operation. *)
Section Programs.
  Context (prf : fac -> key -> Z -> nat -> Z) (colo : bool).
  Inductive program : forall A : Type, M A -> Prop :=
  | PRet A (a : A) : program A (ret a)
  | PRaise A e : program A (raise e)
  | PBind A B (m : M A) (k : A -> M B) : program A m -> (forall a, program B (k a)) -> program B (bind m k)
  | PConst f v sc : program pub (const colo f v sc)
  | PShare ty f v sc : program priv (share prf colo ty f v sc)
  | PRandom ty f : program priv (random_sharing prf colo ty f)
  | PReveal x : program pub (reveal colo x)
  | PReconstruct x d : program pv (reconstruct x d)
  | PAdd x y : program priv (add_pp colo x y)
  | PAddQ x y : program priv (add_pq colo x y)
  | PAddQ' x y : program priv (add_qp colo x y)
  | PAddQQ x y : program pub (add_qq colo x y)
  | PSub x y : program priv (sub_pp colo x y)
  | PSubQ x y : program priv (sub_pq colo x y)
  | PSubQ' x y : program priv (sub_qp colo x y)
  | PSubQQ x y : program pub (sub_qq colo x y)
  | PNegative x : program priv (negative colo x)
  | PMul sc x y : program priv (mul_pp prf colo sc x y)
  | PMulQ sc x y : program priv (mul_pq prf colo sc x y)
  | PMulQQ sc x y : program pub (mul_qq colo sc x y)
  | PMatmul f sc xs ys : program priv (matmul_pp_raw prf colo f sc xs ys)
  | PTruncate sc a x : program priv (truncate_heuristic prf colo sc a x)
  | PTruncateLocal a x : program priv (truncate_local prf colo a x)
  | PTruncateQ8 a x : program priv (truncate_secureq8 prf colo a x)
  | PTruncateQ a x : program pub (truncate_public colo a x)
  | PXor x y : program priv (xor_pp colo x y)
  | PXorQ x y : program priv (xor_pq colo x y)
  | PAnd x y : program priv (and_pp prf colo x y)
  | PAndQ x y : program priv (and_pq colo x y)
  | POr x y : program priv (or_pp prf colo x y)
  | PNot x : program priv (not_p colo x)
  | PShl x k : program priv (lshift colo x k)
  | PShr x k : program priv (rshift colo x k)
  | PShrL x k : program priv (logical_rshift colo x k)
  | PCast f x : program priv (cast colo f x)
  | PPpa x y nb : program priv (ppa_ks prf colo x y nb)
  | PPpaS x y nb : program priv (ppa_sk prf colo x y nb)
  | PA2b nb x : program priv (a2b prf colo nb x)
  | PB2a g nb ppa x : program priv (b2a prf colo g nb ppa x)
  | PB2aSingle g x : program priv (b2a_single prf colo g x)
  | PMulAb x y : program priv (mul_ab_pp prf colo x y)
  | PMulAbQ x y : program priv (mul_ab_qp prf colo x y)
  | PBitExtract x i : program priv (bit_extract prf colo x i)
  | PMsb x : program priv (msb prf colo x)
  | PLess x y : program priv (less_than prf colo x y)
  | PLessQ x y : program priv (less_than_pq prf colo x y)
  | PLessQ' x y : program priv (less_than_qp prf colo x y)
  | PEqual x y : program priv (equal prf colo x y)
  | PSelect c x y : program priv (select prf colo c x y)
  | PMaximum x y : program priv (maximum prf colo x y)
  | PCmpSwap x y : program (priv * priv) (cmp_swap prf colo x y)
  | PRelu x : program priv (relu prf colo x)
  | PProd sc xs : program priv (prod prf colo sc xs)
  | PPow sc x p : program priv (pow prf colo sc x p)
  | PPolynomial sc x cs : program tens (polynomial prf colo sc x cs)
  | PPiecewise x c fs : program priv (piecewise prf colo x c fs)
  | PMax xs : program priv (reduce_max_tree prf colo xs)
  | PMaxAll xs : program priv (reduce_max_all prf colo xs)
  | PArgmax g sc xs : program (priv * tens) (argmax prf colo g sc xs)
  | PArgmaxOnehot xs : program (priv * list tens) (argmax_onehot prf colo xs)
  | PSort acc xs : program (list priv) (sort_private prf colo acc xs)
  | PLocal d ty f sc g args : program priv (local_computation prf colo d ty f sc g args).
End Programs.

(** ** What a server sees *)

(** The words given by all seeds and nonces. *)
Definition oracle : Type := fac -> key -> Z -> nat -> Z.
(** The words drawn in a run, by any machine. *)
Definition seeds (l : list ev) : list (fac * key * Z * nat) :=
  flat_map (fun e => match e with Seed _ f k n i => [(f, k, n, i)] | Saw _ _ => [] end) l.
Definition drawn (l : list ev) (f : fac) (k : key) (n : Z) (i : nat) : Prop := In (f, k, n, i) (seeds l).
Definition server (d : dev) : Prop := d = S0 \/ d = S1 \/ d = S2.
(** The outcome without the values: the types of the results, or the exception. *)
Definition kind (x : priv) : bool * sty * fac := (psc x, pty x, pfc x).
Definition kinds (r : res (list priv)) : res (list (bool * sty * fac)) :=
  match r with Ok xs => Ok (map kind xs) | Err e => Err e end.

(** The two shares a server holds of each result. *)
Definition kept (d : dev) (x : priv) : list Z :=
  match d with S0 => [vz (p00 x); vz (p01 x)] | S1 => [vz (p10 x); vz (p11 x)] | S2 => [vz (p20 x); vz (p21 x)] | _ => [] end.
Definition kepts (d : dev) (r : res (list priv)) : res (list (list Z)) :=
  match r with Ok xs => Ok (map (kept d) xs) | Err e => Err e end.
