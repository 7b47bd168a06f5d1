(** What run() computes, as plain functions of the inputs.

    [Inp] is the user's view of the inputs of a [Booz_xform] object; [repr o inp] says that
    the members of [o] hold them; [ok_inp inp] lists the documented requirements.  The
    remaining definitions are pure functions giving every result of the computation, in the
    arithmetic [S], with no reference to programs, arrays or loops over memory.
    RunProof.v proves that [Model.bx_run] computes exactly these. *)
From Coq Require Import ZArith QArith List String Bool Lia.
From Verif Require Import Scalar Prog Wp.
Import ListNotations.
Local Open Scope Z_scope.

(** [accum n f a] = f (n-1) (... (f 1 (f 0 a))) *)
Definition accum {A} (n : Z) (f : Z -> A -> A) (a : A) : A :=
  nat_rect (fun _ => A) a (fun k acc => f (Z.of_nat k) acc) (Z.to_nat n).

Section Func.
Variable S : Scalar.
Notation F := (F S).
Local Notation toF := (fofZ S).

Record Inp : Type := mkInp {
  asym : bool;
  nfp : Z; mpol : Z; ntor : Z; mnmax : Z; mpolq : Z; ntorq : Z; mnmaxq : Z; nsin : Z;
  mboz : Z; nboz : Z; verb : Z;
  xm : Z -> Z; xn : Z -> Z; xmq : Z -> Z; xnq : Z -> Z;
  nsurf : Z; surf : Z -> Z;
  sin_ : Z -> F; iota : Z -> F;
  rmnc : Z -> Z -> F; zmns : Z -> Z -> F; lmns : Z -> Z -> F;
  bmnc : Z -> Z -> F; bsubumnc : Z -> Z -> F; bsubvmnc : Z -> Z -> F;
  rmns : Z -> Z -> F; zmnc : Z -> Z -> F; lmnc : Z -> Z -> F;
  bmns : Z -> Z -> F; bsubumns : Z -> Z -> F; bsubvmns : Z -> Z -> F
}.

(** The members of [o] hold the inputs [i]; asymmetric arrays matter only if asym. *)
Record repr (o : obj S) (i : Inp) : Prop := mkRepr {
  r_asym : oB o B_asym = Some (asym i);
  r_nfp : oI o I_nfp = Some (nfp i);
  r_mpol : oI o I_mpol = Some (mpol i);
  r_ntor : oI o I_ntor = Some (ntor i);
  r_mnmax : oI o I_mnmax = Some (mnmax i);
  r_mpolq : oI o I_mpol_nyq = Some (mpolq i);
  r_ntorq : oI o I_ntor_nyq = Some (ntorq i);
  r_mnmaxq : oI o I_mnmax_nyq = Some (mnmaxq i);
  r_nsin : oI o I_ns_in = Some (nsin i);
  r_mboz : oI o I_mboz = Some (mboz i);
  r_nboz : oI o I_nboz = Some (nboz i);
  r_verb : oI o I_verbose = Some (verb i);
  r_xm : vec_is (oN o N_xm) (mnmax i) (xm i);
  r_xn : vec_is (oN o N_xn) (mnmax i) (xn i);
  r_xmq : vec_is (oN o N_xm_nyq) (mnmaxq i) (xmq i);
  r_xnq : vec_is (oN o N_xn_nyq) (mnmaxq i) (xnq i);
  r_surf : vec_is (oN o N_compute_surfs) (nsurf i) (surf i);
  r_sin : vec_is (oA o A_s_in) (nsin i) (sin_ i);
  r_iota : vec_is (oA o A_iota) (nsin i) (iota i);
  r_rmnc : mat_is (oA o A_rmnc) (mnmax i) (nsin i) (rmnc i);
  r_zmns : mat_is (oA o A_zmns) (mnmax i) (nsin i) (zmns i);
  r_lmns : mat_is (oA o A_lmns) (mnmax i) (nsin i) (lmns i);
  r_bmnc : mat_is (oA o A_bmnc) (mnmaxq i) (nsin i) (bmnc i);
  r_bsubumnc : mat_is (oA o A_bsubumnc) (mnmaxq i) (nsin i) (bsubumnc i);
  r_bsubvmnc : mat_is (oA o A_bsubvmnc) (mnmaxq i) (nsin i) (bsubvmnc i);
  r_rmns : asym i = true -> mat_is (oA o A_rmns) (mnmax i) (nsin i) (rmns i);
  r_zmnc : asym i = true -> mat_is (oA o A_zmnc) (mnmax i) (nsin i) (zmnc i);
  r_lmnc : asym i = true -> mat_is (oA o A_lmnc) (mnmax i) (nsin i) (lmnc i);
  r_bmns : asym i = true -> mat_is (oA o A_bmns) (mnmaxq i) (nsin i) (bmns i);
  r_bsubumns : asym i = true -> mat_is (oA o A_bsubumns) (mnmaxq i) (nsin i) (bsubumns i);
  r_bsubvmns : asym i = true -> mat_is (oA o A_bsubvmns) (mnmaxq i) (nsin i) (bsubvmns i)
}.

(** Sizes of the grids and of the output (init.cpp:35-42, 86-91). *)
Definition ntheta (i : Inp) : Z := 2 * (2 * mboz i + 1).
Definition nzeta (i : Inp) : Z := if nboz i =? 0 then 1 else 2 * (2 * nboz i + 1).
Definition nu2 (i : Inp) : Z := ntheta i / 2 + 1.
Definition nu3 (i : Inp) : Z := if asym i then ntheta i else nu2 i.
Definition npts (i : Inp) : Z := nu3 i * nzeta i.
Definition mnboz (i : Inp) : Z := (2 * nboz i + 1) * (mboz i - 1) + nboz i + 1.

(** |n| / nfp as the code computes it (C++ division truncates). *)
Definition kn (nf n : Z) : Z := Z.abs (Z.quot n nf).

(** The documented requirements on the inputs, and that the sizes fit in an int. *)
Record ok_inp (i : Inp) : Prop := mkOk {
  ok_nfp : 1 <= nfp i <= INT_MAX;
  ok_mpol : 2 <= mpol i <= INT_MAX;
  ok_ntor : 0 <= ntor i < INT_MAX;
  ok_mpolq : 1 <= mpolq i < INT_MAX;
  ok_ntorq : 0 <= ntorq i < INT_MAX;
  ok_mnmax : 0 <= mnmax i <= INT_MAX;
  ok_mnmaxq : 1 <= mnmaxq i <= INT_MAX;
  ok_nsin : 0 <= nsin i <= INT_MAX;
  ok_nsurf : 0 <= nsurf i <= INT_MAX;
  ok_mboz : 1 <= mboz i;
  ok_nboz : 0 <= nboz i;
  ok_grid : ntheta i * nzeta i <= INT_MAX;
  ok_gridz : nfp i * nzeta i <= INT_MAX;
  ok_xm : forall k, 0 <= k < mnmax i -> 0 <= xm i k < mpol i;
  ok_xn : forall k, 0 <= k < mnmax i -> Z.abs (xn i k) <= INT_MAX /\ kn (nfp i) (xn i k) <= ntor i;
  ok_xmq : forall k, 0 <= k < mnmaxq i -> 0 <= xmq i k <= mpolq i;
  ok_xnq : forall k, 0 <= k < mnmaxq i -> Z.abs (xnq i k) <= INT_MAX /\ kn (nfp i) (xnq i k) <= ntorq i;
  ok_surf : forall k, 0 <= k < nsurf i -> 0 <= surf i k < nsin i
}.

(** cos(k x), sin(k x) by the three-term recurrence of init_trig. *)
Fixpoint tcs (x : F) (k : nat) : F * F :=
  match k with
  | O => (f1 S, f0 S)
  | Datatypes.S k' =>
      match k' with
      | O => (fcos S x, fsin S x)
      | _ => let c := fst (tcs x k') in
             let s := snd (tcs x k') in
             (c * fcos S x - s * fsin S x, s * fcos S x + c * fsin S x)%sc
      end
  end.
Definition TC (x : F) (k : Z) : F := fst (tcs x (Z.to_nat k)).
Definition TS (x : F) (k : Z) : F := snd (tcs x (Z.to_nat k)).

Definition sgn (n : Z) : Z := if n <? 0 then -1 else 1.

(** cos(m theta - n zeta) and sin(m theta - n zeta) from the four tables. *)
Definition pcos (cm sm cn sn : F) (n : Z) : F := (cm * cn + sm * sn * toF (sgn n))%sc.
Definition psin (cm sm cn sn : F) (n : Z) : F := (sm * cn - cm * sn * toF (sgn n))%sc.

(** The same at angles (th, ze), for the mode (m, n). *)
Definition pcosA (nf : Z) (th ze : F) (m n : Z) : F :=
  let k := kn nf n in let y := (toF nf * ze)%sc in
  pcos (TC th m) (TS th m) (TC y k) (TS y k) n.
Definition psinA (nf : Z) (th ze : F) (m n : Z) : F :=
  let k := kn nf n in let y := (toF nf * ze)%sc in
  psin (TC th m) (TS th m) (TC y k) (TS y k) n.

Section OneInput.
Variable i : Inp.

(** The grid: point j is (theta index j / nzeta, zeta index j mod nzeta). *)
Definition dtheta : F :=
  if asym i then (ftwopi S / toF (nu3 i))%sc else (ftwopi S / toF (2 * (nu3 i - 1)))%sc.
Definition dzeta : F := (ftwopi S / toF (nfp i * nzeta i))%sc.
Definition thg (j : Z) : F := (toF (j / nzeta i) * dtheta)%sc.
Definition zeg (j : Z) : F := (toF (j mod nzeta i) * dzeta)%sc.

(** The output mode table: m = 0 has n = 0..nboz, m >= 1 has n = -nboz..nboz. *)
Definition mode_m (k : Z) : Z :=
  if k <=? nboz i then 0 else (k - (nboz i + 1)) / (2 * nboz i + 1) + 1.
Definition mode_n (k : Z) : Z :=
  if k <=? nboz i then k else (k - (nboz i + 1)) mod (2 * nboz i + 1) - nboz i.
Definition xm_b (k : Z) : Z := mode_m k.
Definition xn_b (k : Z) : Z := mode_n k * nfp i.

Section OneSurface.
Variable js : Z.

(** Fourier coefficients of w, surface_solve.cpp:91-107 *)
Definition wmns (k : Z) : F :=
  if negb (xmq i k =? 0) then (bsubumnc i k js / toF (xmq i k))%sc
  else if negb (xnq i k =? 0) then (- bsubvmnc i k js / toF (xnq i k))%sc
  else f0 S.
Definition wmnc (k : Z) : F :=
  if negb (xmq i k =? 0) then (- bsubumns i k js / toF (xmq i k))%sc
  else if negb (xnq i k =? 0) then (bsubvmns i k js / toF (xnq i k))%sc
  else f0 S.
Definition is00 (k : Z) : bool := (xmq i k =? 0) && (xnq i k =? 0).
Definition bI : F := accum (mnmaxq i) (fun k acc => if is00 k then bsubumnc i k js else acc) (f0 S).
Definition bG : F := accum (mnmaxq i) (fun k acc => if is00 k then bsubvmnc i k js else acc) (f0 S).

(** A Fourier sum over the input modes: symmetric term, then asymmetric term if asym. *)
Definition fsum (n : Z) (sym anti : Z -> F) : F :=
  accum n (fun k acc => if asym i then (acc + sym k + anti k)%sc else (acc + sym k)%sc) (f0 S).

(** Quantities at the angles (th, ze) *)
Section AtPoint.
Variables th ze : F.
Let pc k := pcosA (nfp i) th ze (xm i k) (xn i k).
Let ps k := psinA (nfp i) th ze (xm i k) (xn i k).
Let qc k := pcosA (nfp i) th ze (xmq i k) (xnq i k).
Let qs k := psinA (nfp i) th ze (xmq i k) (xnq i k).
Definition p_r : F := fsum (mnmax i) (fun k => pc k * rmnc i k js)%sc (fun k => ps k * rmns i k js)%sc.
Definition p_z : F := fsum (mnmax i) (fun k => ps k * zmns i k js)%sc (fun k => pc k * zmnc i k js)%sc.
Definition p_lam : F := fsum (mnmax i) (fun k => ps k * lmns i k js)%sc (fun k => pc k * lmnc i k js)%sc.
Definition p_lt : F := fsum (mnmax i)
  (fun k => pc k * lmns i k js * toF (xm i k))%sc (fun k => - ps k * lmnc i k js * toF (xm i k))%sc.
Definition p_lz : F := fsum (mnmax i)
  (fun k => - pc k * lmns i k js * toF (xn i k))%sc (fun k => ps k * lmnc i k js * toF (xn i k))%sc.
Definition p_w : F := fsum (mnmaxq i) (fun k => qs k * wmns k)%sc (fun k => qc k * wmnc k)%sc.
Definition p_wt : F := fsum (mnmaxq i)
  (fun k => qc k * wmns k * toF (xmq i k))%sc (fun k => - qs k * wmnc k * toF (xmq i k))%sc.
Definition p_wz : F := fsum (mnmaxq i)
  (fun k => - qc k * wmns k * toF (xnq i k))%sc (fun k => qs k * wmnc k * toF (xnq i k))%sc.
Definition p_b : F := fsum (mnmaxq i) (fun k => qc k * bmnc i k js)%sc (fun k => qs k * bmns i k js)%sc.

(** surface_solve.cpp:200-216, 262 *)
Definition oGI : F := (f1 S / (bG + iota i js * bI))%sc.
Definition p_nu : F := (oGI * (p_w - bI * p_lam))%sc.
Definition p_th : F := (th + p_lam + iota i js * p_nu)%sc.
Definition p_ze : F := (ze + p_nu)%sc.
Definition p_nuz : F := (oGI * (p_wz - bI * p_lz))%sc.
Definition p_nut : F := (oGI * (p_wt - bI * p_lt))%sc.
Definition p_jac : F := ((f1 S + p_lt) * (f1 S + p_nuz) + (iota i js - p_lz) * p_nut)%sc.
Definition p_g : F := ((bG + iota i js * bI) / (p_b * p_b))%sc.
End AtPoint.

(** Output coefficients *)
Definition half_pt (j : Z) : bool :=
  negb (asym i) && ((j <? nzeta i) || (nzeta i * (nu2 i - 1) <=? j)).
Definition wgt (j : Z) (x : F) : F := if half_pt j then (flit S (1 # 2) * x)%sc else x.
Definition ff0 : F :=
  if asym i then (flit S (2 # 1) / toF (ntheta i * nzeta i))%sc
  else (flit S (2 # 1) / toF ((nu2 i - 1) * nzeta i))%sc.
Definition ff (k : Z) : F := if k =? 0 then (ff0 * flit S (1 # 2))%sc else ff0.

Definition bth (j : Z) : F := p_th (thg j) (zeg j).
Definition bze (j : Z) : F := p_ze (thg j) (zeg j).
Definition o_cos (k j : Z) : F :=
  let y := (toF (nfp i) * bze j)%sc in
  let q := kn (nfp i) (xn_b k) in
  (pcos (wgt j (TC (bth j) (xm_b k))) (wgt j (TS (bth j) (xm_b k))) (TC y q) (TS y q) (xn_b k)
   * p_jac (thg j) (zeg j) * ff k)%sc.
Definition o_sin (k j : Z) : F :=
  let y := (toF (nfp i) * bze j)%sc in
  let q := kn (nfp i) (xn_b k) in
  (psin (wgt j (TC (bth j) (xm_b k))) (wgt j (TS (bth j) (xm_b k))) (TC y q) (TS y q) (xn_b k)
   * p_jac (thg j) (zeg j) * ff k)%sc.

(** The increment that grid point j contributes to coefficient k of output [f]. *)
Definition o_inc (f : afield) (k j : Z) : F :=
  match f with
  | A_bmnc_b => (o_cos k j * p_b (thg j) (zeg j))%sc
  | A_rmnc_b => (o_cos k j * p_r (thg j) (zeg j))%sc
  | A_zmns_b => (o_sin k j * p_z (thg j) (zeg j))%sc
  | A_numns_b => (o_sin k j * p_nu (thg j) (zeg j))%sc
  | A_gmnc_b => (o_cos k j * p_g (thg j) (zeg j))%sc
  | A_bmns_b => (o_sin k j * p_b (thg j) (zeg j))%sc
  | A_rmns_b => (o_sin k j * p_r (thg j) (zeg j))%sc
  | A_zmnc_b => (o_cos k j * p_z (thg j) (zeg j))%sc
  | A_numnc_b => (o_cos k j * p_nu (thg j) (zeg j))%sc
  | A_gmns_b => (o_sin k j * p_g (thg j) (zeg j))%sc
  | _ => f0 S
  end.

(** Coefficient k of output [f] on surface js. *)
Definition o_coef (f : afield) (k : Z) : F :=
  accum (npts i) (fun j acc => (acc + o_inc f k j)%sc) (f0 S).

(** check_accuracy: the four sample points and what is reported there *)
Definition chk_idx : list Z :=
  [0; ntheta i / 2 * nzeta i; nzeta i / 2; ntheta i / 2 * nzeta i + nzeta i / 2].
Definition chk_b (j : Z) : F := p_b (thg j) (zeg j).
(** sin(m theta) as found in row r of the table re-used by check_accuracy: init_trig does
    not write column 0, which still holds what surface_solve left there. *)
Definition chk_TS (r : Z) (x : F) (m : Z) : F :=
  if m =? 0 then wgt r (f0 S) else TS x m.
Definition chk_bb (r j : Z) : F :=
  let y := (toF (nfp i) * bze j)%sc in
  accum (mnboz i) (fun k acc =>
    let q := kn (nfp i) (xn_b k) in
    let c := pcos (TC (bth j) (xm_b k)) (chk_TS r (bth j) (xm_b k)) (TC y q) (TS y q) (xn_b k) in
    let s := psin (TC (bth j) (xm_b k)) (chk_TS r (bth j) (xm_b k)) (TC y q) (TS y q) (xn_b k) in
    let acc1 := (acc + c * o_coef A_bmnc_b k)%sc in
    if asym i then (acc1 + s * o_coef A_bmns_b k)%sc else acc1)
    (f0 S).
Definition chk_err (r j : Z) : F :=
  (fabs S (chk_bb r j - chk_b j) / fmax S (chk_bb r j) (chk_b j))%sc.
Definition chk_vals : list F :=
  let j r := nth r chk_idx 0 in
  [chk_b (j 0%nat); chk_b (j 1%nat); chk_b (j 2%nat); chk_b (j 3%nat);
   chk_bb 0 (j 0%nat); chk_bb 1 (j 1%nat); chk_bb 2 (j 2%nat); chk_bb 3 (j 3%nat);
   chk_err 0 (j 0%nat); chk_err 1 (j 1%nat); chk_err 2 (j 2%nat); chk_err 3 (j 3%nat)].

End OneSurface.
End OneInput.

(** The output members filled by surface_solve. *)
Definition sym_outs : list afield := [A_bmnc_b; A_rmnc_b; A_zmns_b; A_numns_b; A_gmnc_b].
Definition asym_outs : list afield := [A_bmns_b; A_rmns_b; A_zmnc_b; A_numnc_b; A_gmns_b].
Definition outs (a : bool) : list afield := if a then sym_outs ++ asym_outs else sym_outs.

(** The members of [o] hold the results for the inputs [i]. *)
Record results (o : obj S) (i : Inp) : Prop := mkRes {
  q_ns_b : oI o I_ns_b = Some (nsurf i);
  q_mnboz : oI o I_mnboz = Some (mnboz i);
  q_xm_b : vec_is (oN o N_xm_b) (mnboz i) (xm_b i);
  q_xn_b : vec_is (oN o N_xn_b) (mnboz i) (xn_b i);
  q_s_b : vec_is (oA o A_s_b) (nsurf i) (fun k => sin_ i (surf i k));
  q_I : vec_is (oA o A_Boozer_I) (nsurf i) (fun k => bI i (surf i k));
  q_G : vec_is (oA o A_Boozer_G) (nsurf i) (fun k => bG i (surf i k));
  q_Iall : vec_is (oA o A_Boozer_I_all) (nsin i) (fun j => bsubumnc i 0 j);
  q_Gall : vec_is (oA o A_Boozer_G_all) (nsin i) (fun j => bsubvmnc i 0 j);
  q_out : forall f, In f (outs (asym i)) ->
    mat_is (oA o f) (mnboz i) (nsurf i) (fun k b => o_coef i (surf i b) f k)
}.

End Func.

Arguments asym {S}. Arguments nfp {S}. Arguments mpol {S}. Arguments ntor {S}. Arguments mnmax {S}.
Arguments mpolq {S}. Arguments ntorq {S}. Arguments mnmaxq {S}. Arguments nsin {S}.
Arguments mboz {S}. Arguments nboz {S}. Arguments verb {S}.
Arguments xm {S}. Arguments xn {S}. Arguments xmq {S}. Arguments xnq {S}.
Arguments nsurf {S}. Arguments surf {S}. Arguments sin_ {S}. Arguments iota {S}.
Arguments rmnc {S}. Arguments zmns {S}. Arguments lmns {S}. Arguments bmnc {S}.
Arguments bsubumnc {S}. Arguments bsubvmnc {S}. Arguments rmns {S}. Arguments zmnc {S}.
Arguments lmnc {S}. Arguments bmns {S}. Arguments bsubumns {S}. Arguments bsubvmns {S}.
Arguments repr {S}. Arguments ok_inp {S}. Arguments results {S}.
Arguments ntheta {S}. Arguments nzeta {S}. Arguments nu2 {S}. Arguments nu3 {S}. Arguments npts {S}.
Arguments mnboz {S}. Arguments TC {S}. Arguments TS {S}. Arguments tcs {S}.
Arguments pcos {S}. Arguments psin {S}. Arguments pcosA {S}. Arguments psinA {S}.
Arguments dtheta {S}. Arguments dzeta {S}. Arguments thg {S}. Arguments zeg {S}.
Arguments mode_m {S}. Arguments mode_n {S}. Arguments xm_b {S}. Arguments xn_b {S}.
Arguments wmns {S}. Arguments wmnc {S}. Arguments is00 {S}. Arguments bI {S}. Arguments bG {S}.
Arguments fsum {S}. Arguments p_r {S}. Arguments p_z {S}. Arguments p_lam {S}. Arguments p_lt {S}.
Arguments p_lz {S}. Arguments p_w {S}. Arguments p_wt {S}. Arguments p_wz {S}. Arguments p_b {S}.
Arguments oGI {S}. Arguments p_nu {S}. Arguments p_th {S}. Arguments p_ze {S}. Arguments p_nuz {S}.
Arguments p_nut {S}. Arguments p_jac {S}. Arguments p_g {S}. Arguments half_pt {S}. Arguments wgt {S}.
Arguments ff0 {S}. Arguments ff {S}. Arguments bth {S}. Arguments bze {S}. Arguments o_cos {S}.
Arguments o_sin {S}. Arguments o_inc {S}. Arguments o_coef {S}. Arguments chk_idx {S}.
Arguments chk_b {S}. Arguments chk_bb {S}. Arguments chk_err {S}. Arguments chk_TS {S}. Arguments chk_vals {S}.
