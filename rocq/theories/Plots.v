(** plots.py: what the four functions compute and hand to matplotlib or plotly.

    A Python exception is [Throw].  b.x is a NumPy view of the member x: an element is read with a
    checked index, negative indices counting from the end; the indeterminate value of an int or
    array element is UB as in C++.  Simplifications: a function that uses some rows of an array
    reads all of it first; of several exceptions the first one of the model is raised; NumPy integers
    do not wrap around; a drawing call succeeds if its arguments have equal lengths; styles
    (kwargs, legend_args, fill, ncontours, axis labels and the like) are left out. *)
From Coq Require Import ZArith QArith List String Bool.
From Verif Require Import Scalar Prog Nc NcModel.
Import ListNotations.
Local Open Scope Z_scope.
Local Open Scope prog_scope.

Section Plots.
Variable S : Scalar.
Notation F := (F S).
Notation prog := (prog S).
Notation io := (io S).
Notation toF := (fofZ S).

(** ** NumPy *)

Definition index_error {A} : prog A := Throw "IndexError".
(** Index [i] of an axis with [n] elements *)
Definition py_index (n i : Z) : prog Z :=
  let k := if i <? 0 then i + n else i in
  if (0 <=? k) && (k <? n) then Ret k else index_error.
Definition npn (f : nfield) (i : Z) : prog Z := n <- sizen f ;; k <- py_index n i ;; getn f k.
Definition np1 (f : afield) (i : Z) : prog F := DimA f (fun r c => k <- py_index (r * c) i ;; getv f k).
Definition np2 (f : afield) (i j : Z) : prog F :=
  DimA f (fun r c => a <- py_index r i ;; b <- py_index c j ;; getm f a b).

(** for k in range(n): collecting what is read *)
Definition collect {T} (n : Z) (g : Z -> prog T) : prog (list T) :=
  for_ 0 n [] (fun k acc => x <- g k ;; Ret (acc ++ [x])).
Definition all_ints (f : nfield) : prog (list Z) := n <- sizen f ;; collect n (getn f).
Definition all_flts (f : afield) : prog (list F) := DimA f (fun r c => collect (r * c) (getv f)).
(** The rows of a matrix *)
Definition all_rows (f : afield) : prog (list (list F)) :=
  DimA f (fun r c => collect r (fun k => collect c (fun j => getm f k j))).

Fixpoint zrange (lo : Z) (n : nat) : list Z :=
  match n with O => [] | Datatypes.S n => lo :: zrange (lo + 1) n end.
(** np.linspace(0, stop, n).  (stop / (n - 1) is not 0 here, which NumPy treats separately.) *)
Definition linspace (stop : F) (n : Z) : prog (list F) :=
  if n <? 0 then Throw "ValueError: Number of samples must be non-negative"
  else
    let delta := fsub S stop (toF 0) in
    let step := if 1 <? n then fdiv S delta (toF (n - 1)) else delta in
    Ret (map (fun k => if (1 <? n) && (k =? n - 1) then stop else fadd S (fmul S (toF k) step) (toF 0))
             (zrange 0 (Z.to_nat n))).
Definition two_pi : F := fmul S (toF 2) (fpi S).                 (* 2 * np.pi *)

(** Grids: np.meshgrid(b, a); a row for each element of [a].  A cell holds the two angles and what is
    accumulated there. *)
Definition mesh {T} (a b : list F) (v : T) : list (list (F * F * T)) :=
  map (fun t => map (fun p => (t, p, v)) b) a.
Definition upd {T U} (g : F -> F -> T -> U) (cells : list (list (F * F * T))) : list (list (F * F * U)) :=
  map (map (fun c => match c with (t, p, v) => (t, p, g t p v) end)) cells.
(** m * theta - n * phi *)
Definition angle (m n : Z) (theta phi : F) : F := fsub S (fmul S (toF m) theta) (fmul S (toF n) phi).

(** ** surfplot, lines 65-76, 87: the cells (theta, phi, modB) and the s of the title *)
Definition surfplot (js ntheta nphi : Z) : prog (list (list (F * F * F)) * F) :=
  theta1d <- linspace two_pi ntheta ;;
  nfp <- geti I_nfp ;;
  if nfp =? 0 then Throw "ZeroDivisionError" else
  phi1d <- linspace (fdiv S two_pi (toF nfp)) nphi ;;
  mn <- sizen N_xm_b ;;
  cells <- for_ 0 mn (mesh theta1d phi1d (toF 0)) (fun jmn modB =>
    m <- npn N_xm_b jmn ;; n <- npn N_xn_b jmn ;;
    c <- np2 A_bmnc_b jmn js ;;
    let modB := upd (fun t p v => fadd S v (fmul S c (fcos S (angle m n t p)))) modB in
    asym <- getb B_asym ;;
    if asym : bool then
      s <- np2 A_bmns_b jmn js ;;
      Ret (upd (fun t p v => fadd S v (fmul S s (fsin S (angle m n t p)))) modB)
    else Ret modB) ;;
  s <- np1 A_s_b js ;;
  Ret (cells, s).

(** ** symplot and modeplot *)

Inductive color : Set := Background | QA | Mirror | Helical | HelicalPlus | HelicalMinus | Cycle.
(** plt.plot(x, y, color, label); the label of modeplot consists of m and n *)
Local Open Scope string_scope.
Local Open Scope list_scope.
Local Open Scope Z_scope.
Inductive label : Type := NoLabel | Text (s : string) | Mode (m n : Z).
Record curve : Type := mkCurve { cv_x : list F; cv_y : list F; cv_color : color; cv_label : label }.

(** data[h_n * b.xm_b == h_m * b.xn_b] = 0.0 on the rows of bmnc_b (lines 141-150, 305-314) *)
Definition without (rm : option (Z * Z)) (modes : list (Z * Z)) (data : list (list F)) : list (list F) :=
  match rm with
  | None => data
  | Some (h_m, h_n) =>
      map (fun r => match r with ((m, n), row) =>
             if h_n * m =? h_m * n then map (fun _ => toF 0) row else row end) (combine modes data)
  end.
(** np.max; of an empty array ValueError *)
Definition np_max (data : list (list F)) : prog F :=
  match List.concat data with
  | [] => Throw "ValueError: zero-size array"
  | x :: l => Ret (fold_left (fmax S) l x)
  end.
(** The mode table and bmnc_b; rows that do not correspond to the modes are an IndexError. *)
Definition read_modes : prog (list (Z * Z) * list (list F)) :=
  ms <- all_ints N_xm_b ;; ns <- all_ints N_xn_b ;; data <- all_rows A_bmnc_b ;;
  if (List.length ns =? List.length ms)%nat && (List.length data =? List.length ms)%nat
  then Ret (combine ms ns, data) else index_error.
(** rad, and the check of plt.plot that it has as many elements as a row *)
Definition radius (sqrts : bool) : prog (list F) :=
  s <- all_flts A_s_b ;;
  DimA A_bmnc_b (fun r c =>
    if c =? Z.of_nat (List.length s) then Ret (if sqrts then map (fsqrt S) s else s)
    else Throw "ValueError: x and y must have same first dimension").
Definition my_abs (log : bool) (x : list F) : list F := if log then map (fabs S) x else x.
Definition default_ymin (ymin : option F) (data : list (list F)) : prog F :=
  match ymin with Some y => Ret y | None => x <- np_max data ;; Ret (fmul S x (flit S (1 # 10000))) end.

(** What appears: the reference line at 0 (drawn if not log), the curves in the order drawn, the
    lower limit of the vertical axis (used if log). *)
Record plot : Type := mkPlot { pl_zero : bool; pl_legend : list curve; pl_curves : list curve; pl_ymin : option F }.

(** symplot, lines 141-257.  [pl_legend]: the curves with labels, drawn first. *)
Section Symplot.
Variable nfp : Z.
Definition first_of (rad : list F) (log : bool) (rows : list (Z * Z * list F)) (p : Z -> Z -> bool)
    (c : color) (s : string) : list curve :=
  match find (fun r => p (fst (fst r)) (snd (fst r))) rows with
  | Some (_, row) => [mkCurve rad (my_abs log row) c (Text s)]
  | None => []
  end.
(** Lines 176-215 *)
Definition legend (B0 helical_detail : bool) (first : (Z -> Z -> bool) -> color -> string -> list curve) : list curve :=
  (if B0 then first (fun m n => (n =? 0) && (m =? 0)) Background "m = 0, n = 0 (Background)" else []) ++
  first (fun m n => (n =? 0) && negb (m =? 0)) QA "m != 0, n = 0 (Quasiaxisymmetric)" ++
  first (fun m n => negb (n =? 0) && (m =? 0)) Mirror "m = 0, n != 0 (Mirror)" ++
  if helical_detail then
    first (fun m n => (n =? m * nfp) && negb (m =? 0)) HelicalPlus "n = nfp m (Helical)" ++
    first (fun m n => (n =? - m * nfp) && negb (m =? 0)) HelicalMinus "n = -nfp m (Helical)" ++
    first (fun m n => negb (n =? 0) && negb (m =? 0)) Helical "Other helical"
  else
    first (fun m n => negb (n =? 0) && negb (m =? 0) && negb (n =? m * nfp) && negb (n =? - m * nfp))
      Helical "m != 0, n != 0 (Helical)".
(** Lines 221-245; [None]: continue *)
Definition mode_color (max_m max_n : Z) (B0 helical_detail : bool) (m n : Z) : option color :=
  if max_m <? Z.abs m then None
  else if max_n * nfp <? Z.abs n then None
  else if n =? 0 then
    if m =? 0 then (if B0 then Some Background else None) else Some QA
  else if m =? 0 then Some Mirror
  else if helical_detail then
    if n =? m * nfp then Some HelicalPlus
    else if n =? - m * nfp then Some HelicalMinus
    else Some Helical
  else Some Helical.
End Symplot.
Definition symplot (max_m max_n : Z) (ymin : option F) (sqrts log B0 : bool) (rm : option (Z * Z))
    (helical_detail : bool) : prog plot :=
  '(modes, data) <- read_modes ;;
  let data := without rm modes data in
  ymin <- default_ymin ymin data ;;
  rad <- radius sqrts ;;
  nfp <- geti I_nfp ;;
  let rows := combine modes data in
  let first := first_of rad log rows in
  Ret (mkPlot (negb log) (legend nfp B0 helical_detail first)
    (flat_map (fun r => match r with ((m, n), row) =>
       match mode_color nfp max_m max_n B0 helical_detail m n with
       | Some c => [mkCurve rad (my_abs log row) c NoLabel]
       | None => []
       end end) rows)
    (if log then Some ymin else None)).

(** modeplot, lines 302-365.  [argsort] is np.argsort: which of the permutations that sort the keys
    it returns depends on NumPy. *)
Definition modeplot (argsort : list F -> list Z) (nmodes : Z) (ymin : option F) (sqrts log B0 : bool)
    (rm : option (Z * Z)) : prog plot :=
  '(modes, bmnc_b) <- read_modes ;;
  ymin <- default_ymin ymin bmnc_b ;;                              (* 302-303 *)
  let data := without rm modes bmnc_b in
  match modes with
  | [] => index_error
  | (m0, n0) :: _ => if (m0 =? 0) && (n0 =? 0) then Ret tt else Throw "AssertionError"
  end ;;;                                                          (* 317-318 *)
  let rows := if B0 then combine modes data else tl (combine modes data) in
  DimA A_bmnc_b (fun r c =>
  last <- py_index c (-1) ;;                                       (* 331 *)
  let keys := map (fun r => fneg S (fabs S (nth (Z.to_nat last) (snd r) (toF 0)))) rows in
  let indices := firstn (Z.to_nat nmodes) (argsort keys) in        (* 332; unused if nmodes < 0 *)
  rad <- radius sqrts ;;
  curves <- collect nmodes (fun jmode =>                           (* 349-353 *)
    if jmode <? Z.of_nat (List.length indices) then
      match nth_error rows (Z.to_nat (nth (Z.to_nat jmode) indices 0)) with
      | Some ((m, n), row) => Ret (mkCurve rad (my_abs log row) Cycle (Mode m n))
      | None => index_error
      end
    else index_error) ;;
  Ret (mkPlot (negb log) [] curves (if log then Some ymin else None))).

(** ** wireplot *)

Definition point : Type := (F * F * F)%type.
(** R, Z, dR/dtheta, dZ/dtheta, nu *)
Record wcell : Type := mkWc { wR : F; wZ : F; wRt : F; wZt : F; wNu : F }.
Record wires : Type := mkWires {
  wi_surface : option (list (list point));
  wi_boozer_theta : list (list point);    (* red curves of constant poloidal angle, ... *)
  wi_boozer_zeta : list (list point);
  wi_orig_theta : list (list point);      (* black ones *)
  wi_orig_zeta : list (list point)
}.
(** zip(X.T, Y.T, Z.T): the columns of an array with rows of [n] elements *)
Definition columns (n : nat) (g : list (list point)) : list (list point) :=
  map (fun k => flat_map (fun row => match nth_error row k with Some p => [p] | None => [] end) g) (seq 0 n).
(** The rows whose number, from 1, has remainder 1 modulo refine (np.mod by 0 is 0) *)
Definition every (refine : Z) (g : list (list point)) : list (list point) :=
  flat_map (fun r => match r with (k, row) => if negb (refine =? 0) && (k mod refine =? 1) then [row] else [] end)
    (combine (zrange 1 (List.length g)) g).
Definition cart (R Z phi : F) : point := (fmul S R (fcos S phi), fmul S R (fsin S phi), Z).
Definition wireplot (js : option Z) (ntheta nphi refine : Z) (surf orig : bool) : prog wires :=
  theta1D <- linspace two_pi (ntheta * refine + 1) ;;
  phi1D <- linspace two_pi (nphi * refine + 1) ;;
  js <- match js with Some j => Ret j | None => n <- geti I_ns_b ;; Ret (n - 1) end ;;
  mnboz <- geti I_mnboz ;;
  let z := toF 0 in
  cells <- for_ 0 mnboz (mesh theta1D phi1D (mkWc z z z z z)) (fun jmn g =>      (* 409-423 *)
    m <- npn N_xm_b jmn ;; n <- npn N_xn_b jmn ;;
    r <- np2 A_rmnc_b jmn js ;; zs <- np2 A_zmns_b jmn js ;; nu <- np2 A_numns_b jmn js ;;
    let g := upd (fun t p v => let a := angle m n t p in let sn := fsin S a in let cs := fcos S a in
      mkWc (fadd S (wR v) (fmul S r cs)) (fadd S (wZ v) (fmul S zs sn))
           (fadd S (wRt v) (fmul S (fmul S (toF (- m)) r) sn)) (fadd S (wZt v) (fmul S (fmul S (toF m) zs) cs))
           (fadd S (wNu v) (fmul S nu sn))) g in
    asym <- getb B_asym ;;
    if asym : bool then
      rs <- np2 A_rmns_b jmn js ;; zc <- np2 A_zmnc_b jmn js ;; nuc <- np2 A_numnc_b jmn js ;;
      Ret (upd (fun t p v => let a := angle m n t p in let sn := fsin S a in let cs := fcos S a in
        mkWc (fadd S (wR v) (fmul S rs sn)) (fadd S (wZ v) (fmul S zc cs)) (wRt v) (wZt v)
             (fadd S (wNu v) (fmul S nuc cs))) g)
    else Ret g) ;;
  let pts := map (map (fun c => match c with (t, p, v) => cart (wR v) (wZ v) (fsub S p (wNu v)) end)) cells in
  let surface := map (map (fun c => match c with (t, p, v) =>                     (* 440-445 *)
      let eps := flit S (2 # 1000) in
      let denom := fsqrt S (fadd S (fmul S (wRt v) (wRt v)) (fmul S (wZt v) (wZt v))) in
      cart (fsub S (wR v) (fmul S eps (fdiv S (wZt v) denom))) (fadd S (wZ v) (fmul S eps (fdiv S (wRt v) denom)))
           (fsub S p (wNu v)) end)) cells in
  let np := List.length phi1D in
  og <- (if orig then                                                             (* 479-496 *)
      js <- npn N_compute_surfs js ;;
      mnmax <- geti I_mnmax ;;
      cells <- for_ 0 mnmax (mesh theta1D phi1D (z, z)) (fun jmn g =>
        m <- npn N_xm jmn ;; n <- npn N_xn jmn ;;
        r <- np2 A_rmnc jmn js ;; zs <- np2 A_zmns jmn js ;;
        let g := upd (fun t p v => let a := angle m n t p in
          (fadd S (fst v) (fmul S r (fcos S a)), fadd S (snd v) (fmul S zs (fsin S a)))) g in
        asym <- getb B_asym ;;
        if asym : bool then
          rs <- np2 A_rmns jmn js ;; zc <- np2 A_zmnc jmn js ;;
          Ret (upd (fun t p v => let a := angle m n t p in
            (fadd S (fst v) (fmul S rs (fsin S a)), fadd S (snd v) (fmul S zc (fcos S a)))) g)
        else Ret g) ;;
      Ret (map (map (fun c => match c with (t, p, v) => cart (fst v) (snd v) p end)) cells)
    else Ret []) ;;
  Ret (mkWires (if surf then Some surface else None)
        (every refine pts) (every refine (columns np pts))
        (every refine og) (every refine (if orig then columns np og else []))).

(** ** handle_b_input, lines 19-30, when b is a file name.  The new object is [wO]. *)
Definition on_file {A} (filename : string) (p : prog A) : io A :=
  ibind (setobj S (obj_new S)) (fun _ => ibind (read_boozmn S filename) (fun _ => lift p)).

End Plots.
