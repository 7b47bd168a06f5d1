(** Error bounds that are computed along with the results: an arithmetic for C77.

    A number is [Some (m, r, E)]: the exact value a has |a 2^p - m| <= r, and the value c that
    the floating point arithmetic has in its place |c - a| 2^p <= E.  [None]: no bound is
    known (it spreads).  All components are integers, so that a run in this arithmetic can
    be computed.

    Parameters: p, the number of binary places; e, the accuracy of the floating point
    arithmetic and M, the bound below which it does not overflow, both in units of 2^-p;
    pi, an approximation of pi/2 in the same units (checked by [half_pi]); n, the number of
    terms of the series of cos and sin. *)
From Coq Require Import ZArith QArith List Bool.
From Verif Require Import Scalar.
Local Open Scope Z_scope.

Section Cert.
Variables (p e M pi : Z) (n : nat).
Definition one : Z := 2 ^ p.
Definition down (x : Z) : Z := Z.shiftr x p.
Definition up (x : Z) : Z := Z.shiftr x p + 1.

(** ** Exact values: m, r *)
Definition iv : Type := (Z * Z)%type.
Definition i_add (x y : iv) : iv := (fst x + fst y, snd x + snd y).
Definition i_sub (x y : iv) : iv := (fst x - fst y, snd x + snd y).
Definition i_neg (x : iv) : iv := (- fst x, snd x).
Definition i_mul (x y : iv) : iv :=
  (down (fst x * fst y), up (Z.abs (fst x) * snd y + Z.abs (fst y) * snd x + snd x * snd y) + 1).
Definition i_divZ (x : iv) (k : Z) : iv := (fst x / k, snd x / k + 2).
Definition i_max (x : iv) : Z := Z.abs (fst x) + snd x.

(** n further terms of the series after term t with sum s: the next one has a factor
    - x^2 / ((j+1) (j+2)) *)
Fixpoint series (x2 t s : iv) (j : Z) (n : nat) : iv * iv :=
  match n with
  | O => (s, t)
  | S n => let t' := i_neg (i_divZ (i_mul t x2) ((j + 1) * (j + 2))) in series x2 t' (i_add s t') (j + 2) n
  end.
Definition next (x2 t : iv) (j : Z) : iv := i_neg (i_divZ (i_mul t x2) ((j + 1) * (j + 2))).
Definition alternating (x : iv) (first : iv) (j : Z) : iv :=
  let x2 := i_mul x x in
  let '(s, t) := series x2 first first j (2 * n + 1) in
  (fst s, snd s + i_max (next x2 t (j + 2 * Z.of_nat (2 * n + 1)))).
(** cos x and sin x for 0 <= x <= 1 *)
Definition small (m : Z) : iv * iv :=
  let x := (m, 0) in (alternating x (one, 0) 0, alternating x x 1).
(** cos and sin of m / 2^h, doubled h times *)
Fixpoint doubled (h : nat) (m : Z) : iv * iv :=
  match h with
  | O => small m
  | S h => let '(c, s) := doubled h (m / 2) in
           let x := i_mul c s in
           let '(c', s') := (i_sub (i_mul c c) (i_mul s s), i_add x x) in
           (* |m - 2 (m / 2)| <= 1 *)
           ((fst c', snd c' + 1), (fst s', snd s' + 1))
  end.
(** for 0 <= m *)
Definition cs (m : Z) : iv * iv := doubled (Z.to_nat (Z.log2 m + 1 - p)) m.
Definition i_cos (x : iv) : iv := let c := fst (cs (Z.abs (fst x))) in (fst c, snd c + snd x).
Definition i_sin (x : iv) : iv :=
  let s := snd (cs (Z.abs (fst x))) in ((if fst x <? 0 then - fst s else fst s), snd s + snd x).
(** cos (pi - w) > 0 > cos (pi + w), both arguments between 0 and 2 *)
Definition w : Z := 1048576.
Definition half_pi : bool :=
  let c1 := fst (cs (pi - w)) in let c2 := fst (cs (pi + w)) in
  (0 <? fst c1 - snd c1) && (fst c2 + snd c2 <? 0) && (w <=? pi) && (pi + w <=? 2 * one).

(** ** With errors *)
Definition num : Type := option (Z * Z * Z).
(** a rounding of a value with exact part x, known to D so far *)
Definition mk (x : iv) (D : Z) : num :=
  let B := i_max x + D in
  if B <=? M then Some (x, D + up (e * (one + B))) else None.
Definition lift2 (g : iv -> Z -> iv -> Z -> num) (x y : num) : num :=
  match x, y with Some (a, E), Some (b, E') => g a E b E' | _, _ => None end.
Definition c_add := lift2 (fun a E b E' => mk (i_add a b) (E + E')).
Definition c_sub := lift2 (fun a E b E' => mk (i_sub a b) (E + E')).
Definition c_mul := lift2 (fun a E b E' => mk (i_mul a b) (up (i_max a * E' + i_max b * E + E * E'))).
Definition c_div := lift2 (fun a E b E' =>
  let lo := Z.abs (fst b) - snd b in
  if E' <? lo then
    mk (fst a * one / fst b, (Z.abs (fst a) * snd b + Z.abs (fst b) * snd a) * one / (Z.abs (fst b) * lo) + 2)
       ((E * lo + i_max a * E') * one / (lo * (lo - E')) + 1)
  else None).
Definition c_ofZ (z : Z) : num := mk (z * one, 0) 0.
Definition c_lit (q : Q) : num := mk (Qnum q * one / Zpos (Qden q), 1) 0.
Definition c_pi : num := if half_pi then mk (2 * pi, 2 * w) 0 else None.
Definition c_cos (x : num) : num := match x with Some (a, E) => Some (i_cos a, E + up (2 * e * one)) | None => None end.
Definition c_sin (x : num) : num := match x with Some (a, E) => Some (i_sin a, E + up (2 * e * one)) | None => None end.

(** comparisons are not needed for the results of run(); there is no square root *)
Definition CERT : Scalar := {|
  F := num;
  fadd := c_add; fsub := c_sub; fmul := c_mul; fdiv := c_div;
  fneg := option_map (fun x => (i_neg (fst x), snd x));
  fofZ := c_ofZ; flit := c_lit; fpi := c_pi;
  fsqrt := fun _ => None; fcos := c_cos; fsin := c_sin; fabs := fun _ => None;
  flt := fun _ _ => false; ftoZ := fun _ => None
|}.
End Cert.
