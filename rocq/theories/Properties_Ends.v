(** C39, C45, C52 and C53 for any object, any file and any behaviour of the library. *)
From Coq Require Import ZArith List String Bool.
From Verif Require Import Scalar Prog Model Wp Spec Vmec Nc NcModel NcSpec NcVoc NcThms NcThms4 Py Frame FrameThms Stored Leak LeakThms.
Import ListNotations.
Local Open Scope Z_scope.

(** ** C39: what is on the disk after write_boozmn ([next_works]: the next call of the library, nc_create, does not fail) *)
Theorem C39_any_end : forall (S : Scalar) version x (w : world S), open_ok w ->
  match write_boozmn S version x w with
  | IOk _ w' => exists f, wFS w' x = Some (Whole f) /\ forall y, y <> x -> wFS w' y = wFS w y
  | IThrow _ w' | IDie w' => (forall y, y <> x -> wFS w' y = wFS w y) /\
      (~ next_works w /\ wFS w' x = wFS w x \/ next_works w /\ wFS w' x = Some Torn)
  | IUB _ => True
  end.
Proof. exact (@write_disk). Qed.
Theorem C39_reading : forall (S : Scalar) x fl (w : world S), open_ok w ->
  (forall w', leaves "" (ReadBoozmn x) w w' -> wFS w' = wFS w) /\ (forall w', leaves "" (ReadWout x fl) w w' -> wFS w' = wFS w).
Proof. exact (@read_disk). Qed.

(** ** C45: the files that are open after each call *)
Theorem C45_boozmn_ends : forall (S : Scalar) x (w : world S), open_ok w ->
  match read_boozmn S x w with
  | IOk _ w' => wOpen w' = wOpen w
  | IThrow _ w' => (forall f, ~ can_open w x f) /\ wOpen w' = wOpen w \/
      exists f, can_open w x f /\ wOpen w' = (wNext w, Reading f) :: wOpen w
  | _ => True
  end.
Proof. exact (@boozmn_handles). Qed.
(** read_wout closes the file before init_from_vmec, whose exceptions leave nothing open *)
Theorem C45_wout_ends : forall (S : Scalar) x fl (w : world S), open_ok w ->
  match read_wout S x fl w with
  | IOk _ w' => wOpen w' = wOpen w
  | IThrow e w' => (forall f, ~ can_open w x f) /\ wOpen w' = wOpen w \/
      (exists f, can_open w x f /\ wOpen w' = (wNext w, Reading f) :: wOpen w) \/
      (exists o v o' ev, run (init_from_vmec S v) o = RThrow e o' ev) /\ wOpen w' = wOpen w
  | _ => True
  end.
Proof. exact (@wout_handles). Qed.
Theorem C45_write_ends : forall (S : Scalar) version x (w : world S), open_ok w ->
  match write_boozmn S version x w with
  | IOk _ w' => wOpen w' = wOpen w
  | IThrow _ w' => ~ next_works w /\ wOpen w' = wOpen w \/
      next_works w /\ exists f, wOpen w' = (wNext w, Writing x f) :: wOpen w
  | _ => True
  end.
Proof. exact (@write_handles). Qed.
(** No call ever closes a file that an earlier one left open; each exception adds at most one. *)
Theorem C45_history : forall (S : Scalar) version n l (w w' : world S), fails_in version n l w w' -> open_ok w ->
  exists new, wOpen w' = new ++ wOpen w /\ (List.length new <= n)%nat.
Proof. exact (fun S version n l w w' H O => proj2 (@handles_kept S version n l w w' H O)). Qed.
Example C45_history_case : forall S : Scalar, exists w', fails_in "0.0.8" 3 [ReadBoozmn "b.nc"; ReadBoozmn "b.nc"; New; ReadBoozmn "b.nc"] (bad_read S) w' /\
  open_ok (bad_read S) /\ wOpen (bad_read S) = [] /\ map fst (wOpen w') = [2; 1; 0].
Proof. exact three_leaks. Qed.

(** ** C52: what follows from read_wout having returned *)
Theorem C52_needed : forall (S : Scalar) x fl (w w' : world S), wf_obj (wO w) -> read_wout S x fl w = IOk tt w' ->
  exists f ns p mn mnq vb, wFS w x = Some (Whole f) /\ integers f "ns" [Some ns] /\
    oI (wO w') I_nfp = Some p /\ oI (wO w') I_mnmax = Some mn /\ oI (wO w') I_mnmax_nyq = Some mnq /\ oI (wO w') I_verbose = Some vb /\
    2 <= ns /\ p <> 0 /\ 1 <= mn /\ 1 <= mnq /\
    (ns = 2 -> forall k, elemN (wO w') N_xm k <> Some (Some 1)) /\ (1 < vb -> 4 <= ns /\ 4 <= mn).
Proof. exact (@wout_needs). Qed.
Theorem C52_nfp_0_never : forall (S : Scalar) x fl (w w' : world S) f, wf_obj (wO w) -> wFS w x = Some (Whole f) -> integers f "nfp" [Some 0] ->
  read_wout S x fl w <> IOk tt w'.
Proof. exact (@nfp_0_never). Qed.
Example C52_case : forall S : Scalar, integers (wex0 S) "nfp" [Some 0] /\
  exists w', read_wout S "wout.nc" false (bx S) = IOk tt w' /\ wf_obj (wO (bx S)).
Proof. exact nfp_0_case. Qed.

(** ** C53: write_boozmn before run() or read_boozmn(), after any calls (also failing ones) on a new object *)
Theorem C53_never_written : forall (S : Scalar) version l x (w w1 w2 : world S), wO w = obj_new S -> performs version l w w1 ->
  forallb (fun c => negb (brings_results c)) l = true -> write_boozmn S version x w1 <> IOk tt w2.
Proof. exact (@new_never). Qed.
Theorem C53_ub : forall (S : Scalar) version x (w : world S), lucky S w -> oI (wO w) I_mnboz = None ->
  match oI (wO w) I_ns_in with None => True | Some n => -1 <= n <= 2147483643 end ->
  exists why, write_boozmn S version x w = IUB why.
Proof. exact (@no_results_ub). Qed.
Example C53_case : forall S : Scalar, exists w1, performs "0.0.8" (first_write S) (bx S) w1 /\ wO (bx S) = obj_new S /\
  forallb (fun c => negb (brings_results c)) (first_write S) = true /\ lucky S w1 /\ oI (wO w1) I_mnboz = None /\ oI (wO w1) I_ns_in = Some 3.
Proof. exact first_write_case. Qed.

Print Assumptions C39_any_end.
Print Assumptions C39_reading.
Print Assumptions C45_boozmn_ends.
Print Assumptions C45_wout_ends.
Print Assumptions C45_write_ends.
Print Assumptions C45_history.
Print Assumptions C52_needed.
Print Assumptions C52_nfp_0_never.
Print Assumptions C53_never_written.
Print Assumptions C53_ub.
