(** Properties C46 - C48, C54: the two command-line programs. *)
From Coq Require Import ZArith QArith List String Ascii Bool Sorted Permutation.
From Verif Require Import Scalar Prog Model Wp Func FuncExt Spec RunThms Vmec VmecSpec VmecThms
  Nc NcModel NcSpec NcVoc NcThms4 Driver DriverSpec BadSurf DriverThms DriverBad.
Import ListNotations.
Local Open Scope Z_scope.

(** ** C46 *)
Theorem C46_driver : forall (S : Scalar) version (w : world S) f text ext mb nb l srt asp i d a, control text mb nb ext l -> sorted_as l srt ->
  ready version w f ext mb nb srt asp i d -> lucky S w -> wcomplete S f i d ->
  exists w' bf, driver S version [a] (Some text) w = IOk 0 w' /\ wFS w' (boozmn_name ext) = Some (Whole bf) /\
    icell bf "mboz_b" 0 = Some (Some (Z.max (6 * mpol i) mb)) /\
    icell bf "nboz_b" 0 = Some (Some (Z.max (Z.max (2 * ntor i - 1) 0) nb)) /\
    (l = [] -> lookup (nf_dims bf) "comput_surfs" = Some (d_ns S d - 1) /\ forall j, 0 <= j < d_ns S d - 1 -> icell bf "jlist" j = Some (Some (j + 2))) /\
    (l <> [] -> lookup (nf_dims bf) "comput_surfs" = Some (Z.of_nat (List.length l)) /\
       forall j, (j < List.length l)%nat -> exists s, nth_error srt j = Some s /\ icell bf "jlist" (Z.of_nat j) = Some (Some (s + 2))) /\
    (let r := request i d mb nb srt in
     forall x g, In (x, g) bvars_sym \/ (asym i = true /\ In (x, g) bvars_asym) -> forall k b, 0 <= k < mnboz r -> 0 <= b < nsurf r ->
       dcell bf x (b * mnboz r + k) = Some (Some (let c := o_coef r (surf r b) g k in
         if (if afield_eq_dec g A_numns_b then true else if afield_eq_dec g A_numnc_b then true else false) then fneg S c else c))).
Proof. exact driver_file. Qed.
Theorem C46_request_refuted : forall S : Scalar, exists version (w : world S) f text ext mb nb l srt asp i d a w' bf,
  control text mb nb ext l /\ sorted_as l srt /\ ready version w f ext mb nb srt asp i d /\ lucky S w /\ wcomplete S f i d /\
  driver S version [a] (Some text) w = IOk 0 w' /\ wFS w' (boozmn_name ext) = Some (Whole bf) /\
  mb = 8 /\ icell bf "mboz_b" 0 = Some (Some 12) /\ l = [2; 0] /\ icell bf "jlist" 0 = Some (Some 2) /\ icell bf "jlist" 1 = Some (Some 4).
Proof. exact request_refuted. Qed.
Example C46_case : forall S asy q, control dtext 8 2 "x" [2; 0] /\ sorted_as [2; 0] [0; 2] /\
  ready "0.0.8" (dworld S asy q) (wex S asy false) "x" 8 2 [0; 2] (fofZ S 3) (vex S asy 1 2 two_surfs) (vexd S false 4) /\
  wcomplete S (wex S asy false) (vex S asy 1 2 two_surfs) (vexd S false 4).
Proof. exact case46. Qed.

(** ** C47 *)
Theorem C47_same_parse : forall (S : Scalar) text mb nb ext l, control text mb nb ext l -> forall a a' (w : world S), exists ev ev',
  driver_read S a (Some text) w = IOk (mb, nb, ext, l) (addEv w ev) /\ cli_read S a' (Some text) w = IOk (mb, nb, ext, l) (addEv w ev').
Proof. exact same_parse. Qed.
Theorem C47_interchangeable : forall (S : Scalar) text mb nb ext l conv, control text mb nb ext l ->
  (forall l, Forall (fun z => INT_MIN <= z <= INT_MAX) l -> conv l = Some l) ->
  forall version pyversion a a' (w : world S),
    same_result (driver S version [a] (Some text) w) (cli S conv version pyversion [a'] (Some text) w).
Proof. exact interchangeable. Qed.
Theorem C47_malformed_refuted : forall (S : Scalar) (w : world S),
  ((exists w', driver_read S "in" (Some "4 4ext"%string) w = IOk (4, 4, "ext"%string, []) w') /\
   (exists m w', cli_read S "in" (Some "4 4ext"%string) w = IThrow m w')) /\
  ((exists w', driver_read S "in" (Some "4 4 ext 0 1.5"%string) w = IOk (4, 4, "ext"%string, [0; 1]) w') /\
   (exists w', cli_read S "in" (Some "4 4 ext 0 1.5"%string) w = IOk (4, 4, "ext"%string, [0]) w')) /\
  ((exists w', driver_read S "in" (Some "4 1_0 ext"%string) w = IOk (4, 1, "_0"%string, []) w') /\
   (exists w', cli_read S "in" (Some "4 1_0 ext"%string) w = IOk (4, 10, "ext"%string, []) w')) /\
  ((exists y, driver_read S "in" (Some "mboz 4"%string) w = IUB y) /\
   (exists m w', cli_read S "in" (Some "mboz 4"%string) w = IThrow m w')) /\
  ((exists y, driver_read S "in" (Some "99999999999 4 ext"%string) w = IUB y) /\
   (exists w', cli_read S "in" (Some "99999999999 4 ext"%string) w = IOk (99999999999, 4, "ext"%string, []) w')) /\
  ((exists w', driver_read S "in" (Some "4 4 ext 5000000000 1"%string) w = IOk (4, 4, "ext"%string, []) w') /\
   (exists w', cli_read S "in" (Some "4 4 ext 5000000000 1"%string) w = IOk (4, 4, "ext"%string, [5000000000; 1]) w')).
Proof. exact parse_differs_refuted. Qed.
Theorem C47_console_refuted : forall (S : Scalar) (w : world S), control dtext 8 2 "x" [2; 0] /\
  exists wa wb, driver_read S "in" (Some dtext) w = IOk (8, 2, "x"%string, [2; 0]) wa /\ cli_read S "in" (Some dtext) w = IOk (8, 2, "x"%string, [2; 0]) wb /\
    wEv wa <> wEv wb.
Proof. exact console_differs_refuted. Qed.
Example C47_case : control dtext 8 2 "x" [2; 0] /\ (forall l, Forall (fun z => INT_MIN <= z <= INT_MAX) l -> Some l = Some l).
Proof. exact (conj dtext_control (fun l _ => eq_refl)). Qed.

(** ** C48 *)
Theorem C48_run_never_throws : forall (S : Scalar) (o : obj S) msg o' ev, run (bx_run S) o <> RThrow msg o' ev.
Proof. exact run_never_throws. Qed.
Theorem C48_run_bad_surface : forall (S : Scalar) (o : obj S) j js, wf_obj o -> elemN o N_compute_surfs j = Some (Some js) ->
  ~ 0 <= js < asize (oA o A_s_in) -> exists why, run (bx_run S) o = RUB why.
Proof. exact bad_surface. Qed.
Theorem C48_driver_bad_surface : forall (S : Scalar) text mb nb ext l, control text mb nb ext l ->
  forall version (w : world S) f asp i d a, wFS w (wout_name ext) = Some (Whole f) -> good_wout f asp i d -> d_flux S d = false -> verb i = 1 ->
  open_ok w -> lucky S w -> Exists (fun z => ~ 0 <= z < d_ns S d - 1) l ->
  exists why, driver S version [a] (Some text) w = IUB why.
Proof. exact driver_bad_surface. Qed.
Theorem C48_cli_bad_surface : forall (S : Scalar) text mb nb ext l conv, control text mb nb ext l ->
  (forall l, Forall (fun z => INT_MIN <= z <= INT_MAX) l -> conv l = Some l) ->
  forall version pyversion (w : world S) f asp i d a, wFS w (wout_name ext) = Some (Whole f) -> good_wout f asp i d -> d_flux S d = false -> verb i = 1 ->
  open_ok w -> lucky S w -> Exists (fun z => ~ 0 <= z < d_ns S d - 1) l ->
  exists why, cli S conv version pyversion [a] (Some text) w = IUB why.
Proof. exact cli_bad_surface. Qed.
Theorem C48_programs_refuted : forall S : Scalar,
  (exists why, driver S "0.0.8" ["in"%string] (Some "1 0 x 9"%string) (dworld S false []) = IUB why) /\
  (exists why, driver S "0.0.8" ["in"%string] (Some "1 0 x -1"%string) (dworld S false []) = IUB why) /\
  (exists why, cli S Some "0.0.8" "0.0.8" ["in"%string] (Some "1 0 x 9"%string) (dworld S false []) = IUB why).
Proof. exact bad_surface_refuted. Qed.
Example C48_run_case : forall S, wf_obj (obj_of (tiny (S := S) 2 1 1 1 0 1 1 0)) /\
  elemN (obj_of (tiny (S := S) 2 1 1 1 0 1 1 0)) N_compute_surfs 0 = Some (Some 1) /\
  asize (oA (obj_of (tiny (S := S) 2 1 1 1 0 1 1 0)) A_s_in) = 1.
Proof. exact (fun S => conj (tiny_wf S) (conj eq_refl eq_refl)). Qed.
Example C48_case : forall S asy, control btext 8 2 "x" [9] /\ wFS (dworld S asy []) (wout_name "x") = Some (Whole (wex S asy false)) /\
  good_wout (wex S asy false) (fofZ S 3) (vex S asy 1 2 two_surfs) (vexd S false 4) /\ open_ok (dworld S asy []) /\ lucky S (dworld S asy []) /\
  Exists (fun z => ~ 0 <= z < d_ns S (vexd S false 4) - 1) [9].
Proof. exact bad_case. Qed.

(** ** C54 *)
Theorem C54_driver_safe : forall (S : Scalar) version (w : world S) f text ext mb nb l srt asp i d a, control text mb nb ext l -> sorted_as l srt ->
  ready version w f ext mb nb srt asp i d ->
  (forall why, driver S version [a] (Some text) w <> IUB why) /\
  (forall z w', driver S version [a] (Some text) w = IOk z w' -> wOpen w' = wOpen w /\
     (forall y, y <> boozmn_name ext -> wFS w' y = wFS w y) /\
     exists bf, wFS w' (boozmn_name ext) = Some (Whole bf) /\ boozmn_of version (request i d mb nb srt) asp bf) /\
  (forall m w', driver S version [a] (Some text) w = IThrow m w' \/ driver S version [a] (Some text) w = IDie w' ->
     (forall y, y <> boozmn_name ext -> wFS w' y = wFS w y) /\
     (wFS w' (boozmn_name ext) = wFS w (boozmn_name ext) \/ wFS w' (boozmn_name ext) = Some Torn)) /\
  (lucky S w -> ~ wcomplete S f i d -> exists m w', driver S version [a] (Some text) w = IThrow m w' /\ wFS w' = wFS w).
Proof. exact driver_safe. Qed.
Theorem C54_no_number : forall (S : Scalar) text, (forall s p r z, text = (s ++ p ++ r)%string -> blank s -> ~ number p z) ->
  forall a (w : world S), exists why, driver_read S a (Some text) w = IUB why.
Proof. exact no_number_ub. Qed.
Theorem C54_malformed_refuted : forall (S : Scalar) version (w : world S), exists a text why, driver S version [a] (Some text) w = IUB why /\
  exists m w', cli S Some version version [a] (Some text) w = IThrow m w'.
Proof. exact malformed_ub_refuted. Qed.
Theorem C54_reported : forall (S : Scalar) version conv pyversion a (w : world S) ctl,
  ctl = None \/
  (exists text ta tb mb nb, ctl = Some text /\ tokens_of text [ta; tb] /\ an_int ta mb /\ an_int tb nb) \/
  (exists text ta tb r mb, ctl = Some text /\ tokens_of text (ta :: tb :: r) /\ an_int ta mb /\ no_number tb) ->
  reported w (driver S version [a] ctl w) /\ reported w (cli S conv version pyversion [a] ctl w).
Proof. exact reported_both. Qed.
Theorem C54_cli_reported : forall (S : Scalar) version conv pyversion text l a (w : world S), tokens_of text l ->
  ((List.length l < 3)%nat \/ no_number (nth 0 l EmptyString) \/ no_number (nth 1 l EmptyString)) ->
  reported w (cli S conv version pyversion [a] (Some text) w).
Proof. exact cli_reported. Qed.
Theorem C54_one_number : forall (S : Scalar) version text ta mb a (w : world S), tokens_of text [ta] -> an_int ta mb ->
  exists why, driver S version [a] (Some text) w = IUB why.
Proof. exact one_number_ub. Qed.
Example C54_case : forall S asy q, control dtext 8 2 "x" [2; 0] /\ sorted_as [2; 0] [0; 2] /\
  ready "0.0.8" (dworld S asy q) (wex S asy false) "x" 8 2 [0; 2] (fofZ S 3) (vex S asy 1 2 two_surfs) (vexd S false 4) /\
  wcomplete S (wex S asy false) (vex S asy 1 2 two_surfs) (vexd S false 4).
Proof. exact case46. Qed.
Example C54_no_number_case : forall s p r z, ""%string = (s ++ p ++ r)%string -> blank s -> ~ number p z.
Proof. exact no_number_case. Qed.
Example C54_bad_cases : tokens_of "8 2" ["8"; "2"]%string /\ tokens_of "8 x" ["8"; "x"]%string /\ tokens_of "8" ["8"]%string /\
  an_int "8" 8 /\ an_int "2" 2 /\ no_number "x".
Proof. exact bad_cases. Qed.

Print Assumptions C46_driver.
Print Assumptions C46_request_refuted.
Print Assumptions C47_same_parse.
Print Assumptions C47_interchangeable.
Print Assumptions C47_malformed_refuted.
Print Assumptions C47_console_refuted.
Print Assumptions C48_run_never_throws.
Print Assumptions C48_run_bad_surface.
Print Assumptions C48_driver_bad_surface.
Print Assumptions C48_cli_bad_surface.
Print Assumptions C48_programs_refuted.
Print Assumptions C54_driver_safe.
Print Assumptions C54_no_number.
Print Assumptions C54_malformed_refuted.
Print Assumptions C54_reported.
Print Assumptions C54_cli_reported.
Print Assumptions C54_one_number.
