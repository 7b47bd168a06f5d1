(** Arithmetic that the compiler may rearrange: the vocabulary of property C78.

    A compiler may evaluate a product and a sum that uses it with one rounding (a fused
    multiply-add), at some places and not at others; gcc does so by default where the
    processor has the instruction.  The same product then stands for two different numbers:
    rounded where it is stored, exact where it is added.

    [loose S v e M]: in the arithmetic S, [v x (Some a)] says that x may stand for the real
    number a and [v x None] that it may fail to be a number.  Whatever an operation's result
    may stand for is within e (1 + |exact result|) of the exact result for some of the numbers
    its operands may stand for, as long as that exact result is defined and at most M. *)
From Coq Require Import ZArith QArith Reals Qreals Floats.SpecFloat.
From Verif Require Import Scalar Ieee.
Local Open Scope Z_scope.
Local Open Scope R_scope.

(** what may come out when the exact result is t (None: there is none) *)
Definition delivers (e M : R) (t w : option R) : Prop :=
  match t with
  | Some t => Rabs t <= M -> exists c, w = Some c /\ Rabs (c - t) <= e * (1 + Rabs t)
  | None => True
  end.
Definition on1 (g : R -> option R) (u : option R) : option R := match u with Some a => g a | None => None end.
Definition on2 (g : R -> R -> option R) (u w : option R) : option R :=
  match u, w with Some a, Some b => g a b | _, _ => None end.
Definition quo (a b : R) : option R := if Req_EM_T b 0 then None else Some (a / b).

Section Loose.
Variables (S : Scalar) (v : F S -> option R -> Prop) (e M : R).
Definition some (x : F S) : Prop := exists u, v x u.
Definition loose0 (x : F S) (t : R) : Prop := some x /\ forall w, v x w -> delivers e M (Some t) w.
Definition loose1 (f : F S -> F S) (g : R -> option R) : Prop := forall x, some x ->
  some (f x) /\ forall w, v (f x) w -> exists u, v x u /\ delivers e M (on1 g u) w.
Definition loose2 (f : F S -> F S -> F S) (g : R -> R -> option R) : Prop := forall x y, some x -> some y ->
  some (f x y) /\ forall w, v (f x y) w -> exists u u', v x u /\ v y u' /\ delivers e M (on2 g u u') w.

Record loose : Prop := mkLoose {
  lo_pos : 0 <= e;
  lo_add : loose2 (fadd S) (fun a b => Some (a + b));
  lo_sub : loose2 (fsub S) (fun a b => Some (a - b));
  lo_mul : loose2 (fmul S) (fun a b => Some (a * b));
  lo_div : loose2 (fdiv S) quo;
  lo_neg : forall x, some x -> some (fneg S x) /\ forall w, v (fneg S x) w -> exists u, v x u /\ w = option_map Ropp u;
  lo_cos : loose1 (fcos S) (fun a => Some (cos a));
  lo_sin : loose1 (fsin S) (fun a => Some (sin a));
  lo_ofZ : forall z, loose0 (fofZ S z) (IZR z);
  lo_lit : forall q, loose0 (flit S q) (Q2R q);
  lo_pi : loose0 (fpi S) PI
}.
(** an input: a number within e (1 + |a|) of a *)
Definition input (x : F S) (a : R) : Prop :=
  some x /\ forall w, v x w -> exists c, w = Some c /\ Rabs (c - a) <= e * (1 + Rabs a).
End Loose.

(** ** Fused multiply-add in IEEE arithmetic *)
Section FMA.
Variables (prec emax : Z) (pi : spec_float) (cos_ sin_ : spec_float -> spec_float).

(** x y + z rounded once (IEEE 754, fusedMultiplyAdd; one NaN as in SpecFloat) *)
Definition sf_fma (x y z : spec_float) : spec_float :=
  match x, y with
  | S754_finite s m e, S754_finite s' m' e' =>
      let p := cond_Zopp (xorb s s') (Zpos (m * m')) in
      let ep := (e + e')%Z in
      match z with
      | S754_zero _ => binary_normalize prec emax p ep false
      | S754_finite sz mz ez =>
          let e0 := Z.min ep ez in
          binary_normalize prec emax
            (cond_Zopp (xorb s s') (Zpos (fst (shl_align (m * m') ep e0))) + cond_Zopp sz (Zpos (fst (shl_align mz ez e0))))
            e0 false
      | _ => z
      end
  | _, _ => SFadd prec emax (SFmul prec emax x y) z
  end.

(** A number, and the factors if it has just been computed as a product *)
Definition cell : Type := spec_float * option (spec_float * spec_float).
(** What x + y and x - y may be evaluated to *)
Inductive sums (x y : cell) : cell -> Prop :=
| sums_plain : sums x y (SFadd prec emax (fst x) (fst y), None)
| sums_left p q : snd x = Some (p, q) -> sums x y (sf_fma p q (fst y), None)
| sums_right p q : snd y = Some (p, q) -> sums x y (sf_fma p q (fst x), None).
Inductive diffs (x y : cell) : cell -> Prop :=
| diffs_plain : diffs x y (SFsub prec emax (fst x) (fst y), None)
| diffs_left p q : snd x = Some (p, q) -> diffs x y (sf_fma p q (SFopp (fst y)), None)
| diffs_right p q : snd y = Some (p, q) -> diffs x y (sf_fma (SFopp p) q (fst x), None).
Definition times (x y : cell) : cell := (SFmul prec emax (fst x) (fst y), Some (fst x, fst y)).
Definition minus (x : cell) : cell := (SFopp (fst x), option_map (fun f => (SFopp (fst f), snd f)) (snd x)).
Definition plain (x : spec_float) : cell := (x, None).

(** One way of evaluating them *)
Definition CONTRACT (add sub : cell -> cell -> cell) : Scalar := {|
  F := cell;
  fadd := add; fsub := sub; fmul := times; fdiv := fun x y => plain (SFdiv prec emax (fst x) (fst y));
  fneg := minus; fofZ := fun z => plain (sf_ofZ prec emax z); flit := fun q => plain (sf_lit prec emax q); fpi := plain pi;
  fsqrt := fun x => plain (SFsqrt prec emax (fst x));
  fcos := fun x => plain (cos_ (fst x)); fsin := fun x => plain (sin_ (fst x)); fabs := fun x => plain (SFabs (fst x));
  flt := fun x y => SFltb (fst x) (fst y); ftoZ := fun x => sf_toZ prec emax (fst x)
|}.

(** All of them: the set of the numbers a quantity may have, each use of a quantity being
    evaluated in its own way.  Simplification: the comparison and the conversion to integers,
    which [BX_run] applies to nothing but the figures it prints, are not sets. *)
Definition img1 (f : cell -> cell) (X : cell -> Prop) : cell -> Prop := fun c => exists x, X x /\ c = f x.
Definition img2 (f : cell -> cell -> cell -> Prop) (X Y : cell -> Prop) : cell -> Prop :=
  fun c => exists x y, X x /\ Y y /\ f x y c.
Definition only (x : spec_float) : cell -> Prop := fun c => c = plain x.
Definition FMA : Scalar := {|
  F := cell -> Prop;
  fadd := img2 sums; fsub := img2 diffs; fmul := img2 (fun x y c => c = times x y);
  fdiv := img2 (fun x y c => c = plain (SFdiv prec emax (fst x) (fst y)));
  fneg := img1 minus; fofZ := fun z => only (sf_ofZ prec emax z); flit := fun q => only (sf_lit prec emax q); fpi := only pi;
  fsqrt := img1 (fun x => plain (SFsqrt prec emax (fst x)));
  fcos := img1 (fun x => plain (cos_ (fst x))); fsin := img1 (fun x => plain (sin_ (fst x))); fabs := img1 (fun x => plain (SFabs (fst x)));
  flt := fun _ _ => false; ftoZ := fun _ => None
|}.

(** the numbers an element of such a set may stand for *)
Inductive uses (X : cell -> Prop) : option R -> Prop :=
| uses_num x c : X x -> sf_is prec emax (fst x) c -> uses X (Some c)
| uses_prod x p q a b : X x -> snd x = Some (p, q) -> sf_is prec emax p a -> sf_is prec emax q b -> uses X (Some (a * b))
| uses_bad x : X x -> (forall c, ~ sf_is prec emax (fst x) c) -> uses X None
| uses_badp x p q : X x -> snd x = Some (p, q) -> ((forall c, ~ sf_is prec emax p c) \/ (forall c, ~ sf_is prec emax q c)) -> uses X None.
End FMA.
