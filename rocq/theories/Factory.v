(** Rings used by the protocols: a record of the operations the protocols call
    on /repo/tf_encrypted/tensor/factory.py [AbstractTensor]s, and the laws that
    make such a record a faithful ring modulo [fmod].

    [fval] is the residue in [0, fmod) that an element stands for; [fwf] says the
    stored representation is one the library can produce. *)
From Verif Require Import Base.

(** Models the part of AbstractFactory/AbstractTensor used by the protocols
    (factory.py: modulus, tensor, add, sub, mul, negative). *)
Record factory := MkFactory {
  felt : Type;
  fmod : Z;
  fwf  : felt -> Prop;
  fval : felt -> Z;
  fof  : Z -> felt;
  fadd : felt -> felt -> felt;
  fsub : felt -> felt -> felt;
  fmul : felt -> felt -> felt;
  fneg : felt -> felt
}.

(** Specification: the operations are the ring operations modulo [fmod]. *)
Record lawful (F : factory) : Prop := MkLawful {
  law_mod : 0 < fmod F;
  law_range : forall x, fwf F x -> 0 <= fval F x < fmod F;
  law_inj : forall x y, fwf F x -> fwf F y -> fval F x = fval F y -> x = y;
  law_of_wf : forall z, fwf F (fof F z);
  law_of : forall z, fval F (fof F z) = z mod fmod F;
  law_add_wf : forall x y, fwf F x -> fwf F y -> fwf F (fadd F x y);
  law_sub_wf : forall x y, fwf F x -> fwf F y -> fwf F (fsub F x y);
  law_mul_wf : forall x y, fwf F x -> fwf F y -> fwf F (fmul F x y);
  law_neg_wf : forall x, fwf F x -> fwf F (fneg F x);
  law_add : forall x y, fwf F x -> fwf F y -> fval F (fadd F x y) = (fval F x + fval F y) mod fmod F;
  law_sub : forall x y, fwf F x -> fwf F y -> fval F (fsub F x y) = (fval F x - fval F y) mod fmod F;
  law_mul : forall x y, fwf F x -> fwf F y -> fval F (fmul F x y) = (fval F x * fval F y) mod fmod F;
  law_neg : forall x, fwf F x -> fval F (fneg F x) = (- fval F x) mod fmod F
}.
