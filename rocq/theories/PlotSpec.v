(** The vocabulary of the theorems about plots.py. *)
From Coq Require Import ZArith QArith List String Bool Reals Permutation.
From Verif Require Import Scalar Prog Wp Func RunProof Spec RSum RSpec Nc Plots.
Import ListNotations.
Local Open Scope Z_scope.

Section PlotSpec.
Context {S : Scalar}.
Notation obj := (obj S).
Notation F := (F S).

(** The object holds results: [n] modes (ms k, ns k), [c] surfaces sb b, and for each output matrix f the
    value V f k b for mode k on surface b.  True after run(), and after read_boozmn(). *)
Record shows (o : obj) (a : bool) (nf n c : Z) (ms ns : Z -> Z) (sb : Z -> F) (V : afield -> Z -> Z -> F) : Prop := mkShows {
  sh_asym : oB o B_asym = Some a;
  sh_nfp : oI o I_nfp = Some nf;
  sh_n : oI o I_mnboz = Some n;
  sh_c : oI o I_ns_b = Some c;
  sh_xm : vec_is (oN o N_xm_b) n ms;
  sh_xn : vec_is (oN o N_xn_b) n ns;
  sh_s : vec_is (oA o A_s_b) c sb;
  sh_V : forall f, In f (outs a) -> mat_is (oA o f) n c (V f);
  sh_pos : 1 <= nf /\ 1 <= n /\ 0 <= c;
  sh_first : ms 0 = 0 /\ ns 0 = 0;
  sh_mult : forall k, 0 <= k < n -> (nf | ns k)
}.

(** 0, 1, ..., n - 1 *)
Definition upto (n : Z) : list Z := zseq 0 (Z.to_nat n).
(** A surface number as Python understands it *)
Definition wrap (c js : Z) : Z := if js <? 0 then js + c else js.
(** The surface wireplot draws: the last one unless told otherwise *)
Definition surf_index (c : Z) (js : option Z) : Z := wrap c (match js with Some j => j | None => c - 1 end).

(** np.argsort as documented: the permutation of the indices that sorts the keys.  The order of equal
    keys, and the algorithm, are not specified. *)
Definition sorts (argsort : list F -> list Z) : Prop :=
  forall l, Permutation (argsort l) (upto (Z.of_nat (List.length l))) /\
    forall a b x y u v, (a < b)%nat -> nth_error (argsort l) a = Some x -> nth_error (argsort l) b = Some y ->
      znth l x = Some u -> znth l y = Some v -> flt S v u = false.

(** Mode (m, n) has helicity (h_m, h_n) = [rm]. *)
Definition removed (rm : option (Z * Z)) (m n : Z) : bool :=
  match rm with Some (hm, hn) => hn * m =? hm * n | None => false end.

Section Curves.
Variables (c : Z) (ms ns : Z -> Z) (sb : Z -> F) (V : afield -> Z -> Z -> F).
(** |B| of mode k on surface b, 0 if the helicity of the mode is removed *)
Definition ampl (rm : option (Z * Z)) (k b : Z) : F :=
  if removed rm (ms k) (ns k) then fofZ S 0 else V A_bmnc_b k b.
(** The curve of mode k *)
Definition mode_curve (rm : option (Z * Z)) (sqrts log : bool) (col : color) (lab : label) (k : Z) : curve S :=
  mkCurve S (map (fun b => if sqrts then fsqrt S (sb b) else sb b) (upto c))
    (map (fun b => if log then fabs S (ampl rm k b) else ampl rm k b) (upto c)) col lab.
End Curves.

(** The largest of the values g k b *)
Definition largest (n c : Z) (g : Z -> Z -> F) : F :=
  match List.concat (map (fun k => map (g k) (upto c)) (upto n)) with
  | x :: l => fold_left (fmax S) l x
  | [] => fofZ S 0
  end.
(** The lower limit of the axis: given, or 1e-4 of the largest value *)
Definition lower (ymin : option F) (n c : Z) (g : Z -> Z -> F) : F :=
  match ymin with Some y => y | None => fmul S (largest n c g) (flit S (1 # 10000)) end.
(** The modes among which modeplot chooses: all, or all but m = n = 0; and their number *)
Definition eligible (B0 : bool) (n k : Z) : Prop := 0 <= k < n /\ (B0 = false -> k <> 0).
Definition count (B0 : bool) (n : Z) : Z := if B0 then n else n - 1.

(** The kinds of modes *)
Definition has_color (detail : bool) (nf m n : Z) (c : color) : Prop :=
  match c with
  | Background => m = 0 /\ n = 0
  | QA => m <> 0 /\ n = 0
  | Mirror => m = 0 /\ n <> 0
  | HelicalPlus => detail = true /\ m <> 0 /\ n = nf * m
  | HelicalMinus => detail = true /\ m <> 0 /\ n = - nf * m /\ n <> nf * m
  | Helical => m <> 0 /\ n <> 0 /\ (detail = true -> n <> nf * m /\ n <> - nf * m)
  | Cycle => False
  end.
(** The labels of the legend of symplot *)
Definition legend_text (detail : bool) (c : color) : string :=
  match c with
  | Background => "m = 0, n = 0 (Background)"
  | QA => "m != 0, n = 0 (Quasiaxisymmetric)"
  | Mirror => "m = 0, n != 0 (Mirror)"
  | HelicalPlus => "n = nfp m (Helical)"
  | HelicalMinus => "n = -nfp m (Helical)"
  | Helical => if detail then "Other helical" else "m != 0, n != 0 (Helical)"
  | Cycle => ""
  end%string.
(** symplot is asked to show the mode. *)
Definition selected (max_m max_n : Z) (B0 : bool) (nf m n : Z) : Prop :=
  Z.abs m <= max_m /\ Z.abs n <= max_n * nf /\ (B0 = false -> ~ (m = 0 /\ n = 0)).
(** The plot of a file is the plot of an object. *)
Definition same_outcome {A} (r : ires S A) (q : res S A) : Prop :=
  match q with
  | ROk v _ _ => exists w, r = IOk v w
  | RThrow m _ _ => exists w, r = IThrow m w
  | RUB y => r = IUB y
  end.
(** The object is as before, and nothing is printed. *)
Definition leaves {A} (q : res S A) (o : obj) : Prop :=
  match q with ROk _ o' ev => o' = o /\ ev = [] | RThrow _ o' ev => o' = o /\ ev = [] | RUB _ => True end.

End PlotSpec.

Local Open Scope R_scope.
(** Point k of n points from 0 to stop, both included *)
Definition lin (stop : R) (n k : Z) : R := if Z.eqb n 1 then 0 else stop * IZR k / IZR (n - 1).
(** The point with cylindrical coordinates R, phi, Z *)
Definition cyl (r phi z : R) : R * R * R := (r * cos phi, r * sin phi, z).

(** The surface in Boozer coordinates, from the output of the transformation; V: the values on it *)
Section Shown.
Variables (a : bool) (n : Z) (ms ns : Z -> Z) (V : afield -> Z -> R).
Definition sB : R -> R -> R := series n ms ns (V A_bmnc_b) (onA a (V A_bmns_b)).
Definition sR : R -> R -> R := series n ms ns (V A_rmnc_b) (onA a (V A_rmns_b)).
Definition sZ : R -> R -> R := series n ms ns (onA a (V A_zmnc_b)) (V A_zmns_b).
Definition sNu : R -> R -> R := series n ms ns (onA a (V A_numnc_b)) (V A_numns_b).
(** nu is the Boozer toroidal angle minus the toroidal angle. *)
Definition boozer_point (t z : R) : R * R * R := cyl (sR t z) (z - sNu t z) (sZ t z).
End Shown.
(** The surface in the original coordinates *)
Definition orig_point (i : Inp RS) (js : Z) (t z : R) : R * R * R := cyl (mR i js t z) z (mZ i js t z).
(** Curves along which the first argument of P is constant: nt segments, np * rf points each *)
Definition curves1 (P : R -> R -> R * R * R) (nt np rf : Z) : list (list (R * R * R)) :=
  map (fun p => map (fun q => P (lin (2 * PI) (nt + 1) p) (lin (2 * PI) (np * rf + 1) q)) (upto (np * rf + 1))) (upto (nt + 1)).
(** The same for the second *)
Definition curves2 (P : R -> R -> R * R * R) (nt np rf : Z) : list (list (R * R * R)) :=
  map (fun q => map (fun p => P (lin (2 * PI) (nt * rf + 1) p) (lin (2 * PI) (np + 1) q)) (upto (nt * rf + 1))) (upto (np + 1)).
(** The surface drawn inside the curves: displaced by 1/500, to the left of the direction of increasing theta *)
Definition left_of (r z rt zt r' z' : R) : Prop :=
  (r' - r) * rt + (z' - z) * zt = 0 /\ (r' - r)² + (z' - z)² = (1 / 500)² /\ 0 < (z' - z) * rt - (r' - r) * zt.
