(** The transformation itself: init_trig, init, surface_solve, check_accuracy, run. *)
From Coq Require Import ZArith QArith List String Bool.
From Verif Require Import Scalar Prog.
Import ListNotations.
Local Open Scope Z_scope.
Local Open Scope prog_scope.

Section Model.
Variable S : Scalar.
Notation prog := (prog S).
Notation arr := (arr S).
Notation F := (F S).
Local Notation toF := (fofZ S).

(** init_trig.cpp:16-51.  The four matrices, passed by reference, are local values here:
    they go in and come out. *)
Record trig4 : Type := mkTrig { tcosm : arr; tsinm : arr; tcosn : arr; tsinn : arr }.

(** init_trig.cpp:23-28 *)
Definition it_first (theta : arr) (t : trig4) : prog trig4 :=
  for_ 0 (asize theta) t (fun j t =>
    a <- mset (tcosm t) j 0 (f1 S) ;;
    c <- mset (tcosn t) j 0 (f1 S) ;;
    th <- vget theta j ;;
    a <- mset a j 1 (fcos S th) ;;
    b <- mset (tsinm t) j 1 (fsin S th) ;;
    Ret (mkTrig a b c (tsinn t))).

(** init_trig.cpp:29-34; the loop bound is theta_grid_x.size() *)
Definition it_second (theta zeta : arr) (nmax nfpx : Z) (t : trig4) : prog trig4 :=
  if 1 <=? nmax then
    for_ 0 (asize theta) t (fun j t =>
      ze <- vget zeta j ;;
      c <- mset (tcosn t) j 1 (fcos S (toF nfpx * ze)%sc) ;;
      d <- mset (tsinn t) j 1 (fsin S (toF nfpx * ze)%sc) ;;
      Ret (mkTrig (tcosm t) (tsinm t) c d))
  else Ret t.

(** The body shared by the two recurrences, init_trig.cpp:38-41 and 46-49, on the pair
    (cos table, sin table). *)
Definition it_rec (npts mmax : Z) (cs : arr * arr) : prog (arr * arr) :=
  for_ 2 (mmax + 1) cs (fun m cs =>
    for_ 0 npts cs (fun j cs =>
      let '(c, s) := cs in
      cm1 <- mget c j (m - 1) ;;
      c1 <- mget c j 1 ;;
      sm1 <- mget s j (m - 1) ;;
      s1 <- mget s j 1 ;;
      c <- mset c j m (cm1 * c1 - sm1 * s1)%sc ;;
      sm1 <- mget s j (m - 1) ;;
      c1 <- mget c j 1 ;;
      cm1 <- mget c j (m - 1) ;;
      s1 <- mget s j 1 ;;
      s <- mset s j m (sm1 * c1 + cm1 * s1)%sc ;;
      Ret (c, s))).

Definition init_trig (theta zeta : arr) (t : trig4) (mmax nmax nfpx : Z) : prog trig4 :=
  t <- it_first theta t ;;
  t <- it_second theta zeta nmax nfpx t ;;
  cs <- it_rec (asize theta) mmax (tcosm t, tsinm t) ;;
  cn <- it_rec (asize theta) nmax (tcosn t, tsinn t) ;;
  Ret (mkTrig (fst cs) (snd cs) (fst cn) (snd cn)).

(** init.cpp:53-62.  xm_b and xn_b are built in locals; nothing can observe them meanwhile. *)
Definition init_modes (mboz nboz nfp mnboz : Z) : prog (narr * narr) :=
  xm <- zeros 0 mnboz 1 ;;
  xn <- zeros 0 mnboz 1 ;;
  top <- isub mboz 1 ;;
  '(xm, xn, _) <-
    for_ 0 (top + 1) (xm, xn, 0) (fun m st =>
      let nmin := if m =? 0 then 0 else - nboz in
      for_ nmin (nboz + 1) st (fun n st =>
        let '(xm, xn, j) := st in
        xm <- vset xm j m ;;
        v <- imul n nfp ;;
        xn <- vset xn j v ;;
        j <- iadd j 1 ;;
        Ret (xm, xn, j))) ;;
  Ret (xm, xn).

(** init.cpp:110-120: the (theta, zeta) grid *)
Definition init_grid (nu3_b nzeta : Z) (d_theta d_zeta : F) : prog (arr * arr) :=
  n <- imul nu3_b nzeta ;;
  th <- zeros (f0 S) n 1 ;;
  ze <- zeros (f0 S) n 1 ;;
  '(th, ze, _) <-
    for_ 0 nu3_b (th, ze, 0) (fun j_theta st =>
      for_ 0 nzeta st (fun j_zeta st =>
        let '(th, ze, index) := st in
        th <- vset th index (toF j_theta * d_theta)%sc ;;
        ze <- vset ze index (toF j_zeta * d_zeta)%sc ;;
        index <- iadd index 1 ;;
        Ret (th, ze, index))) ;;
  Ret (th, ze).

(** init.cpp:31-172.  Release build: the asserts (lines 63, 149, 150) are no-ops.
    [omp_max_threads()] (line 43) only goes to the screen and is dropped. *)
Definition init : prog unit :=
  mboz <- geti I_mboz ;;
  nboz <- geti I_nboz ;;
  (* 35-38 *)
  t <- imul 2 mboz ;; t <- iadd t 1 ;; ntheta <- imul 2 t ;;
  seti I_ntheta ntheta ;;;
  t <- imul 2 nboz ;; t <- iadd t 1 ;; nzeta <- imul 2 t ;;
  let nzeta := if nboz =? 0 then 1 else nzeta in
  seti I_nzeta nzeta ;;;
  t <- idiv ntheta 2 ;; nu2_b <- iadd t 1 ;;
  seti I_nu2_b nu2_b ;;;
  (* 40-42 *)
  t <- imul 2 nboz ;; t <- iadd t 1 ;; u <- isub mboz 1 ;;
  t <- imul t u ;; t <- iadd t nboz ;; mnboz <- iadd t 1 ;;
  seti I_mnboz mnboz ;;;
  (* 44-48 *)
  verbose <- geti I_verbose ;;
  (if 0 <? verbose then
     out "Initializing with mboz, nboz, ntheta, nzeta" [mboz; nboz; ntheta; nzeta] []
   else Ret tt) ;;;
  nfp <- geti I_nfp ;;
  '(xm_b, xn_b) <- init_modes mboz nboz nfp mnboz ;;
  setn N_xm_b xm_b ;;;
  setn N_xn_b xn_b ;;;
  (* 86-91 *)
  asym <- getb B_asym ;;
  let nu3_b := if asym then ntheta else nu2_b in
  seti I_nu3_b nu3_b ;;;
  n_theta_zeta <- imul nu3_b nzeta ;;
  seti I_n_theta_zeta n_theta_zeta ;;;
  (* 97-106 *)
  d_theta <- (if asym then Ret (ftwopi S / toF nu3_b)%sc
              else t <- isub nu3_b 1 ;; t <- imul 2 t ;; Ret (ftwopi S / toF t)%sc) ;;
  setf F_d_theta d_theta ;;;
  t <- imul nfp nzeta ;;
  let d_zeta := (ftwopi S / toF t)%sc in
  setf F_d_zeta d_zeta ;;;
  (* 109-119 *)
  '(theta_grid, zeta_grid) <- init_grid nu3_b nzeta d_theta d_zeta ;;
  setarr A_theta_grid theta_grid ;;;
  setarr A_zeta_grid zeta_grid ;;;
  (* 121-136 *)
  mpol <- geti I_mpol ;;
  ntor <- geti I_ntor ;;
  mpol_nyq <- geti I_mpol_nyq ;;
  ntor_nyq <- geti I_ntor_nyq ;;
  cosm <- zeros (f0 S) n_theta_zeta mpol ;;
  sinm <- zeros (f0 S) n_theta_zeta mpol ;;
  ntor1 <- iadd ntor 1 ;;
  cosn <- zeros (f0 S) n_theta_zeta ntor1 ;;
  sinn <- zeros (f0 S) n_theta_zeta ntor1 ;;
  mq1 <- iadd mpol_nyq 1 ;;
  cosmq <- zeros (f0 S) n_theta_zeta mq1 ;;
  sinmq <- zeros (f0 S) n_theta_zeta mq1 ;;
  nq1 <- iadd ntor_nyq 1 ;;
  cosnq <- zeros (f0 S) n_theta_zeta nq1 ;;
  sinnq <- zeros (f0 S) n_theta_zeta nq1 ;;
  mpol1 <- isub mpol 1 ;;
  t4 <- init_trig theta_grid zeta_grid (mkTrig cosm sinm cosn sinn) mpol1 ntor nfp ;;
  setarr A_cosm (tcosm t4) ;;; setarr A_sinm (tsinm t4) ;;;
  setarr A_cosn (tcosn t4) ;;; setarr A_sinn (tsinn t4) ;;;
  t4 <- init_trig theta_grid zeta_grid (mkTrig cosmq sinmq cosnq sinnq) mpol_nyq ntor_nyq nfp ;;
  setarr A_cosm_nyq (tcosm t4) ;;; setarr A_sinm_nyq (tsinm t4) ;;;
  setarr A_cosn_nyq (tcosn t4) ;;; setarr A_sinn_nyq (tsinn t4) ;;;
  (* 144-155 *)
  ns_b <- sizen N_compute_surfs ;;
  seti I_ns_b ns_b ;;;
  s_b <- getarr A_s_b ;;
  s_b <- resize s_b ns_b 1 ;;
  s_b <- for_ 0 ns_b s_b (fun j s_b =>
           js <- getn N_compute_surfs j ;;
           x <- getv A_s_in js ;;
           vset s_b j x) ;;
  setarr A_s_b s_b ;;;
  ns_in <- geti I_ns_in ;;
  z <- zeros (f0 S) ns_b 1 ;;
  setarr A_Boozer_I z ;;;
  setarr A_Boozer_G z ;;;
  zi <- zeros (f0 S) ns_in 1 ;;
  '(ia, ga) <- for_ 0 ns_in (zi, zi) (fun j st =>
     let '(ia, ga) := st in
     x <- getm A_bsubumnc 0 j ;;
     ia <- vset ia j x ;;
     x <- getm A_bsubvmnc 0 j ;;
     ga <- vset ga j x ;;
     Ret (ia, ga)) ;;
  setarr A_Boozer_I_all ia ;;;
  setarr A_Boozer_G_all ga ;;;
  (* 158-171 *)
  zo <- zeros (f0 S) mnboz ns_b ;;
  setarr A_bmnc_b zo ;;;
  setarr A_rmnc_b zo ;;;
  setarr A_zmns_b zo ;;;
  setarr A_numns_b zo ;;;
  setarr A_gmnc_b zo ;;;
  (if asym then
     setarr A_bmns_b zo ;;;
     setarr A_rmns_b zo ;;;
     setarr A_zmnc_b zo ;;;
     setarr A_numnc_b zo ;;;
     setarr A_gmns_b zo
   else Ret tt).

(** ** surface_solve *)

(** surface_solve.cpp:134-138 and its copies at 177-181, 293-297 *)
Definition sign_of (n : Z) : Z := if n <? 0 then -1 else 1.

(** surface_solve.cpp:91-107; [wmnc] is only touched when asym *)
Definition transp (asym : bool) (js js_b mnmax_nyq : Z) (wmns wmnc : arr) : prog (arr * arr) :=
  for_ 0 mnmax_nyq (wmns, wmnc) (fun jmn st =>
    let '(wmns, wmnc) := st in
    m <- getn N_xm_nyq jmn ;;
    n <- getn N_xn_nyq jmn ;;
    if negb (m =? 0) then
      x <- getm A_bsubumnc jmn js ;;
      wmns <- vset wmns jmn (x / toF m)%sc ;;
      if asym then
        y <- getm A_bsubumns jmn js ;;
        wmnc <- vset wmnc jmn (- y / toF m)%sc ;;
        Ret (wmns, wmnc)
      else Ret (wmns, wmnc)
    else if negb (n =? 0) then
      x <- getm A_bsubvmnc jmn js ;;
      wmns <- vset wmns jmn (- x / toF n)%sc ;;
      if asym then
        y <- getm A_bsubvmns jmn js ;;
        wmnc <- vset wmnc jmn (y / toF n)%sc ;;
        Ret (wmns, wmnc)
      else Ret (wmns, wmnc)
    else
      x <- getm A_bsubumnc jmn js ;;
      putv A_Boozer_I js_b x ;;;
      y <- getm A_bsubvmnc jmn js ;;
      putv A_Boozer_G js_b y ;;;
      Ret (wmns, wmnc)).

Record rzl : Type := mkRzl { vr : arr; vz : arr; vlam : arr; vdlt : arr; vdlz : arr }.

(** surface_solve.cpp:129-155 *)
Definition vcoords_rz (asym : bool) (js mnmax nfp n_theta_zeta : Z) (st : rzl) : prog rzl :=
  for_ 0 mnmax st (fun jmn st =>
    m <- getn N_xm jmn ;;
    n <- getn N_xn jmn ;;
    an <- iabs n ;; abs_n <- idiv an nfp ;;
    let sign := sign_of n in
    for_ 0 n_theta_zeta st (fun j st =>
      cm <- getm A_cosm j m ;; cn <- getm A_cosn j abs_n ;;
      sm <- getm A_sinm j m ;; sn <- getm A_sinn j abs_n ;;
      let tcos := (cm * cn + sm * sn * toF sign)%sc in
      let tsin := (sm * cn - cm * sn * toF sign)%sc in
      x <- getm A_rmnc jmn js ;;
      r <- vinc (vr st) j (tcos * x)%sc ;;
      x <- getm A_zmns jmn js ;;
      z <- vinc (vz st) j (tsin * x)%sc ;;
      x <- getm A_lmns jmn js ;;
      l <- vinc (vlam st) j (tsin * x)%sc ;;
      lt <- vinc (vdlt st) j (tcos * x * toF m)%sc ;;
      lz <- vinc (vdlz st) j (- tcos * x * toF n)%sc ;;
      if negb asym then Ret (mkRzl r z l lt lz)
      else
        x <- getm A_rmns jmn js ;;
        r <- vinc r j (tsin * x)%sc ;;
        x <- getm A_zmnc jmn js ;;
        z <- vinc z j (tcos * x)%sc ;;
        x <- getm A_lmnc jmn js ;;
        l <- vinc l j (tcos * x)%sc ;;
        lt <- vinc lt j (- tsin * x * toF m)%sc ;;
        lz <- vinc lz j (tsin * x * toF n)%sc ;;
        Ret (mkRzl r z l lt lz))).

Record wb : Type := mkWb { vw : arr; vdwt : arr; vdwz : arr; vbmod : arr }.

(** surface_solve.cpp:173-196 *)
Definition vcoords_w (asym : bool) (js mnmax_nyq nfp n_theta_zeta : Z) (wmns wmnc : arr) (st : wb)
  : prog wb :=
  for_ 0 mnmax_nyq st (fun jmn st =>
    m <- getn N_xm_nyq jmn ;;
    n <- getn N_xn_nyq jmn ;;
    q <- idiv n nfp ;; abs_n <- iabs q ;;
    let sign := sign_of n in
    for_ 0 n_theta_zeta st (fun j st =>
      cm <- getm A_cosm_nyq j m ;; cn <- getm A_cosn_nyq j abs_n ;;
      sm <- getm A_sinm_nyq j m ;; sn <- getm A_sinn_nyq j abs_n ;;
      let tcos := (cm * cn + sm * sn * toF sign)%sc in
      let tsin := (sm * cn - cm * sn * toF sign)%sc in
      x <- vget wmns jmn ;;
      w <- vinc (vw st) j (tsin * x)%sc ;;
      wt <- vinc (vdwt st) j (tcos * x * toF m)%sc ;;
      wz <- vinc (vdwz st) j (- tcos * x * toF n)%sc ;;
      y <- getm A_bmnc jmn js ;;
      b <- vinc (vbmod st) j (tcos * y)%sc ;;
      if negb asym then Ret (mkWb w wt wz b)
      else
        x <- vget wmnc jmn ;;
        w <- vinc w j (tcos * x)%sc ;;
        wt <- vinc wt j (- tsin * x * toF m)%sc ;;
        wz <- vinc wz j (tsin * x * toF n)%sc ;;
        y <- getm A_bmns jmn js ;;
        b <- vinc b j (tsin * y)%sc ;;
        Ret (mkWb w wt wz b))).

(** An Eigen coefficient-wise assignment [v = expr]: element j is computed by [e j].
    All operands have n_theta_zeta elements. *)
Definition vexpr (n : Z) (v : arr) (e : Z -> prog F) : prog arr :=
  for_ 0 n v (fun j v => x <- e j ;; vset v j x).

Record har : Type := mkHar { hnu : arr; hth : arr; hze : arr; hjac : arr }.

(** surface_solve.cpp:200-216 *)
Definition harfun (js js_b n_theta_zeta : Z) (a : rzl) (b : wb) (zero : arr) : prog har :=
  this_iota <- getv A_iota js ;;
  g <- getv A_Boozer_G js_b ;;
  i <- getv A_Boozer_I js_b ;;
  let one_over_GI := (f1 S / (g + this_iota * i))%sc in
  nu <- vexpr n_theta_zeta zero (fun j =>
          w <- vget (vw b) j ;; l <- vget (vlam a) j ;;
          Ret (one_over_GI * (w - i * l))%sc) ;;
  th <- vexpr n_theta_zeta zero (fun j =>
          t <- getv A_theta_grid j ;; l <- vget (vlam a) j ;; u <- vget nu j ;;
          Ret (t + l + this_iota * u)%sc) ;;
  ze <- vexpr n_theta_zeta zero (fun j =>
          z <- getv A_zeta_grid j ;; u <- vget nu j ;; Ret (z + u)%sc) ;;
  nuz <- vexpr n_theta_zeta zero (fun j =>
          w <- vget (vdwz b) j ;; l <- vget (vdlz a) j ;;
          Ret (one_over_GI * (w - i * l))%sc) ;;
  nut <- vexpr n_theta_zeta zero (fun j =>
          w <- vget (vdwt b) j ;; l <- vget (vdlt a) j ;;
          Ret (one_over_GI * (w - i * l))%sc) ;;
  jac <- vexpr n_theta_zeta zero (fun j =>
          lt <- vget (vdlt a) j ;; nz <- vget nuz j ;;
          lz <- vget (vdlz a) j ;; nt <- vget nut j ;;
          Ret ((f1 S + lt) * (f1 S + nz) + (this_iota - lz) * nt)%sc) ;;
  Ret (mkHar nu th ze jac).

(** The two inner statements at surface_solve.cpp:251-252 and 255-256 *)
Definition halve (lo hi jmn : Z) (t : trig4) : prog trig4 :=
  for_ lo hi t (fun j t =>
    c <- mget (tcosm t) j jmn ;;
    cm <- mset (tcosm t) j jmn (flit S (1 # 2) * c)%sc ;;
    s <- mget (tsinm t) j jmn ;;
    sm <- mset (tsinm t) j jmn (flit S (1 # 2) * s)%sc ;;
    Ret (mkTrig cm sm (tcosn t) (tsinn t))).

(** surface_solve.cpp:245-259 *)
Definition half_weights (asym : bool) (nzeta nu2_b mboz : Z) (t : trig4) : prog trig4 :=
  if negb asym then
    u <- isub nu2_b 1 ;; u <- imul nzeta u ;; i <- iadd u 1 ;;
    u <- isub i 1 ;; imax <- iadd u nzeta ;;
    for_ 0 (mboz + 1) t (fun jmn t =>
      t <- halve 0 nzeta jmn t ;;
      halve (i - 1) imax jmn t)
  else Ret t.

(** [m(i,j) += x] on a Matrix member *)
Definition incm (f : afield) (i j : Z) (x : F) : prog unit :=
  y <- getm f i j ;; putm f i j (y + x)%sc.

(** The statements [f(i,j) += x;] for the given members in the given order. *)
Fixpoint incs (i j : Z) (l : list (afield * F)) : prog unit :=
  match l with
  | [] => Ret tt
  | (f, x) :: l' => incm f i j x ;;; incs i j l'
  end.

(** surface_solve.cpp:289-323 *)
Definition accumulate (asym : bool) (js_b nfp mnboz n_theta_zeta : Z) (fourier_factor0 : F)
  (t : trig4) (jac bmod r z nu bjac : arr) : prog unit :=
  for_ 0 mnboz tt (fun jmn _ =>
    m <- getn N_xm_b jmn ;;
    n <- getn N_xn_b jmn ;;
    q <- idiv n nfp ;; abs_n <- iabs q ;;
    let sign := sign_of n in
    let fourier_factor :=
      if jmn =? 0 then (fourier_factor0 * flit S (1 # 2))%sc else fourier_factor0 in
    for_ 0 n_theta_zeta tt (fun j _ =>
      cm <- mget (tcosm t) j m ;; cn <- mget (tcosn t) j abs_n ;;
      sm <- mget (tsinm t) j m ;; sn <- mget (tsinn t) j abs_n ;;
      d <- vget jac j ;;
      let tcos := ((cm * cn + sm * sn * toF sign) * d * fourier_factor)%sc in
      let tsin := ((sm * cn - cm * sn * toF sign) * d * fourier_factor)%sc in
      xb <- vget bmod j ;; xr <- vget r j ;; xz <- vget z j ;; xn <- vget nu j ;; xg <- vget bjac j ;;
      incs jmn js_b [(A_bmnc_b, tcos * xb); (A_rmnc_b, tcos * xr); (A_zmns_b, tsin * xz);
                     (A_numns_b, tsin * xn); (A_gmnc_b, tcos * xg)]%sc ;;;
      if negb asym then Ret tt
      else
        incs jmn js_b [(A_bmns_b, tsin * xb); (A_rmns_b, tsin * xr); (A_zmnc_b, tcos * xz);
                       (A_numnc_b, tcos * xn); (A_gmns_b, tsin * xg)]%sc)).

(** ** check_accuracy *)

(** check_accuracy.cpp:34-77: the four sample indices *)
Definition check_indices (ntheta nzeta : Z) : prog (list Z) :=
  h <- idiv ntheta 2 ;;
  i1 <- imul h nzeta ;;
  i2 <- idiv nzeta 2 ;;
  i3 <- iadd i1 i2 ;;
  Ret [0; i1; i2; i3].

(** check_accuracy.cpp:94-112 *)
Definition check_sum (asym : bool) (js_b nfp mnboz : Z) (t : trig4) (bb : arr) : prog arr :=
  for_ 0 mnboz bb (fun jmn bb =>
    m <- getn N_xm_b jmn ;;
    n <- getn N_xn_b jmn ;;
    q <- idiv n nfp ;; abs_n <- iabs q ;;
    let sign := sign_of n in
    for_ 0 4 bb (fun j bb =>
      cm <- mget (tcosm t) j m ;; cn <- mget (tcosn t) j abs_n ;;
      sm <- mget (tsinm t) j m ;; sn <- mget (tsinn t) j abs_n ;;
      x <- getm A_bmnc_b jmn js_b ;;
      bb <- vinc bb j ((cm * cn + sm * sn * toF sign) * x)%sc ;;
      if negb asym then Ret bb
      else
        y <- getm A_bmns_b jmn js_b ;;
        vinc bb j ((sm * cn - cm * sn * toF sign) * y)%sc)).

(** The values of a local vector at the four sample indices, check_accuracy.cpp:34-77 *)
Definition at4 (idx : list Z) (v : arr) : prog arr :=
  a <- vget v (nth 0 idx 0) ;; b <- vget v (nth 1 idx 0) ;;
  c <- vget v (nth 2 idx 0) ;; d <- vget v (nth 3 idx 0) ;;
  Ret (mkArr 4 1 [Some a; Some b; Some c; Some d]).

(** check_accuracy.cpp:17-148.  Asserts are no-ops.  The two printed lines, in one
    [omp critical] block, are one event: js_b, js, then the four |B| values of the input,
    the four reconstructed ones, the four errors. *)
Definition check_accuracy (js js_b : Z) (bmod th ze : arr) (t : trig4) : prog unit :=
  ntheta <- geti I_ntheta ;;
  nzeta <- geti I_nzeta ;;
  idx <- check_indices ntheta nzeta ;;
  bv <- at4 idx bmod ;;
  tht <- at4 idx th ;;
  zet <- at4 idx ze ;;
  mboz <- geti I_mboz ;;
  nboz <- geti I_nboz ;;
  nfp <- geti I_nfp ;;
  t <- init_trig tht zet t mboz nboz nfp ;;
  mnboz <- geti I_mnboz ;;
  asym <- getb B_asym ;;
  bb <- check_sum asym js_b nfp mnboz t
          (mkArr 4 1 [Some (f0 S); Some (f0 S); Some (f0 S); Some (f0 S)]) ;;
  v0 <- vget bv 0 ;; v1 <- vget bv 1 ;; v2 <- vget bv 2 ;; v3 <- vget bv 3 ;;
  b0 <- vget bb 0 ;; b1 <- vget bb 1 ;; b2 <- vget bb 2 ;; b3 <- vget bb 3 ;;
  let err b v := (fabs S (b - v) / fmax S b v)%sc in
  out "accuracy" [js_b; js]
      [v0; v1; v2; v3; b0; b1; b2; b3; err b0 v0; err b1 v1; err b2 v2; err b3 v3].

(** surface_solve.cpp:56-216 apart from the declarations of the trigonometric tables: the
    geometry, |B|, nu, the Boozer angles and the Jacobian at all grid points. *)
Definition surface_angles (asym : bool) (js js_b n_theta_zeta : Z) : prog (rzl * wb * har) :=
  mnmax_nyq <- geti I_mnmax_nyq ;;
  wmns <- zeros (f0 S) mnmax_nyq 1 ;;
  wmnc <- (if asym then zeros (f0 S) mnmax_nyq 1 else Ret empty_vec) ;;
  zero <- zeros (f0 S) n_theta_zeta 1 ;;
  (* 91-107 *)
  '(wmns, wmnc) <- transp asym js js_b mnmax_nyq wmns wmnc ;;
  (* 129-155 *)
  mnmax <- geti I_mnmax ;;
  nfp <- geti I_nfp ;;
  a <- vcoords_rz asym js mnmax nfp n_theta_zeta (mkRzl zero zero zero zero zero) ;;
  (* 173-196 *)
  b <- vcoords_w asym js mnmax_nyq nfp n_theta_zeta wmns wmnc (mkWb zero zero zero zero) ;;
  (* 200-216 *)
  h <- harfun js js_b n_theta_zeta a b zero ;;
  Ret (a, b, h).

(** surface_solve.cpp:16-409.  The blocks under [if (false && ...)] are dead code.  Line 20 is
    not in a critical section: its insertions into std::cout are separate events (here two:
    each label with the number that follows it, the newline going with the second). *)
Definition surface_solve (js_b : Z) : prog unit :=
  js <- getn N_compute_surfs js_b ;;
  verbose <- geti I_verbose ;;
  (if 1 <? verbose then out "Solving for js_b=" [js_b] [] ;;; out ", js=" [js] [] else Ret tt) ;;;
  (* 56-80 *)
  n_theta_zeta <- geti I_n_theta_zeta ;;
  mboz <- geti I_mboz ;;
  nboz <- geti I_nboz ;;
  mboz1 <- iadd mboz 1 ;;
  nboz1 <- iadd nboz 1 ;;
  cosm_b <- zeros (f0 S) n_theta_zeta mboz1 ;;
  cosn_b <- zeros (f0 S) n_theta_zeta nboz1 ;;
  asym <- getb B_asym ;;
  '(a, b, h) <- surface_angles asym js js_b n_theta_zeta ;;
  (* 242-259 *)
  nfp <- geti I_nfp ;;
  t <- init_trig (hth h) (hze h) (mkTrig cosm_b cosm_b cosn_b cosn_b) mboz nboz nfp ;;
  nzeta <- geti I_nzeta ;;
  nu2_b <- geti I_nu2_b ;;
  t <- half_weights asym nzeta nu2_b mboz t ;;
  (* 262 *)
  this_iota <- getv A_iota js ;;
  g <- getv A_Boozer_G js_b ;;
  i <- getv A_Boozer_I js_b ;;
  zero <- zeros (f0 S) n_theta_zeta 1 ;;
  bjac <- vexpr n_theta_zeta zero (fun j =>
            x <- vget (vbmod b) j ;; Ret ((g + this_iota * i) / (x * x))%sc) ;;
  (* 281-286 *)
  ntheta <- geti I_ntheta ;;
  d <- (if asym then imul ntheta nzeta
        else u <- isub nu2_b 1 ;; imul u nzeta) ;;
  let fourier_factor0 := (flit S (2 # 1) / toF d)%sc in
  mnboz <- geti I_mnboz ;;
  accumulate asym js_b nfp mnboz n_theta_zeta fourier_factor0 t
             (hjac h) (vbmod b) (vr a) (vz a) (hnu h) bjac ;;;
  (* 327-329 *)
  if 0 <? verbose then check_accuracy js js_b (vbmod b) (hth h) (hze h) t else Ret tt.

(** run.cpp:6-26, executed by one thread.  The surface loop under [omp parallel for] is
    given its concurrent meaning in Par.v. *)
Definition run_head : prog unit :=
  verbose <- geti I_verbose ;;
  (if 0 <? verbose then
     n <- sizen N_compute_surfs ;;
     l <- for_ 0 n [] (fun j l => x <- getn N_compute_surfs j ;; Ret (l ++ [x])) ;;
     out "compute_surfs (0-based indices)" l []
   else Ret tt) ;;;
  init ;;;
  (if 0 <? verbose then out "accuracy table heading" [] [] else Ret tt).

Definition bx_run : prog unit :=
  run_head ;;;
  n <- sizen N_compute_surfs ;;
  for_ 0 n tt (fun j _ => surface_solve j).

End Model.
