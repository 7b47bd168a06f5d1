(** The vocabulary of the theorems about the two command-line programs: what a control file says. *)
From Coq Require Import ZArith QArith List String Ascii Bool Sorted Permutation.
From Verif Require Import Scalar Prog Model Wp Func Spec Vmec VmecSpec Nc NcModel NcSpec NcVoc.
Import ListNotations.
Local Open Scope Z_scope.

(** ** Texts *)
(** White space for both programs; characters that are white space for Python only. *)
Definition white (c : ascii) : Prop := In (nat_of_ascii c) [9; 10; 11; 12; 13; 32]%nat.
Definition odd_white (c : ascii) : Prop := In (nat_of_ascii c) [28; 29; 30; 31]%nat.
Fixpoint every (P : ascii -> Prop) (s : string) : Prop :=
  match s with EmptyString => True | String c t => P c /\ every P t end.
Definition blank (s : string) : Prop := every white s.
Definition solid (s : string) : Prop := s <> EmptyString /\ every (fun c => ~ white c /\ ~ odd_white c) s.
(** The tokens of a text *)
Inductive tokens_of : string -> list string -> Prop :=
| tk_end s : blank s -> tokens_of s []
| tk_more s t u l : blank s -> solid t -> (u = EmptyString \/ exists c r, u = String c r /\ white c) ->
    tokens_of u l -> tokens_of (s ++ t ++ u) (t :: l).

(** Plain decimal numbers *)
Definition digit_char (c : ascii) (d : Z) : Prop := 0 <= d <= 9 /\ c = ascii_of_nat (48 + Z.to_nat d).
Inductive digits_of : string -> Z -> Prop :=
| dg_one c d : digit_char c d -> digits_of (String c EmptyString) d
| dg_more s z c d : digits_of s z -> digit_char c d -> digits_of (s ++ String c EmptyString) (10 * z + d).
Definition number (s : string) (z : Z) : Prop :=
  digits_of s z \/ (exists t, s = String "+" t /\ digits_of t z) \/ (exists t, s = String "-" t /\ digits_of t (- z)).
Definition an_int (s : string) (z : Z) : Prop := number s z /\ INT_MIN <= z <= INT_MAX.
(** The surfaces: the numbers up to the end, or up to a token no part of which can be taken for a
    number. *)
Inductive surfaces : list string -> list Z -> Prop :=
| sf_end : surfaces [] []
| sf_more t l z zs : an_int t z -> surfaces l zs -> surfaces (t :: l) (z :: zs)
| sf_stop t l : (forall p r z, t = (p ++ r)%string -> ~ number p z) -> surfaces (t :: l) [].
(** A control file asking for [mb], [nb], the extension [ext] and the surfaces [l] *)
Definition control (text : string) (mb nb : Z) (ext : string) (l : list Z) : Prop :=
  exists a b r, tokens_of text (a :: b :: ext :: r) /\ an_int a mb /\ an_int b nb /\ surfaces r l.

Definition wout_name (ext : string) : string := ("wout_" ++ ext ++ ".nc")%string.
Definition boozmn_name (ext : string) : string := ("boozmn_" ++ ext ++ ".nc")%string.

Section DriverSpec.
Context {S : Scalar}.
Notation world := (world S).

(** The transformation that is done: the inputs of run(), for the equilibrium in a wout file (see
    from_vmec), at least the default resolution, and the surfaces [srt], all of them if none is
    given. *)
Definition request (i : Inp S) (d : vdat S) (mb nb : Z) (srt : list Z) : Inp S :=
  let j := from_vmec i d in
  {| asym := asym j; nfp := nfp j; mpol := mpol j; ntor := ntor j; mnmax := mnmax j;
     mpolq := mpolq j; ntorq := ntorq j; mnmaxq := mnmaxq j; nsin := nsin j;
     mboz := Z.max (6 * mpol i) mb; nboz := Z.max (Z.max (2 * ntor i - 1) 0) nb; verb := verb j;
     xm := xm j; xn := xn j; xmq := xmq j; xnq := xnq j;
     nsurf := match srt with [] => nsin j | _ => Z.of_nat (List.length srt) end;
     surf := match srt with [] => fun k => k | _ => fun k => nth (Z.to_nat k) srt 0 end;
     sin_ := sin_ j; iota := iota j;
     rmnc := rmnc j; zmns := zmns j; lmns := lmns j; bmnc := bmnc j; bsubumnc := bsubumnc j; bsubvmnc := bsubvmnc j;
     rmns := rmns j; zmnc := zmnc j; lmnc := lmnc j; bmns := bmns j; bsubumns := bsubumns j; bsubvmns := bsubvmns j |}.

(** Everything but what was printed. *)
Definition same_world (w w' : world) : Prop :=
  wO w = wO w' /\ wFS w = wFS w' /\ wOpen w = wOpen w' /\ wNext w = wNext w' /\ wQ w = wQ w'.
Definition same_result {A} (r r' : ires S A) : Prop :=
  match r, r' with
  | IOk a w, IOk a' w' => a = a' /\ same_world w w'
  | IThrow m w, IThrow m' w' => m = m' /\ same_world w w'
  | IUB y, IUB y' => y = y'
  | IDie w, IDie w' => same_world w w'
  | _, _ => False
  end.

(** The contents of the output file: the results for the inputs [i], without flux functions, and
    nothing else. *)
Definition boozmn_of (version : string) (i : Inp S) (asp : F S) (f : ncfile S) : Prop :=
  (exists o, after_run o i /\ oF o F_aspect = Some asp /\ has_fluxes o = false /\ holds_results o i f) /\
  nf_dims f = [("radius", nsin i + 1); ("mn_mode", mnboz i); ("mn_modes", mnboz i); ("comput_surfs", nsurf i); ("pack_rad", nsurf i);
               (dim_str (22 + String.length version), Z.of_nat (22 + String.length version))]%string /\
  map (fun v => (vr_name v, vr_dims v, lookup (vr_atts v) "units")) (nf_vars f) = blayout version (asym i) false.

(** The directory contains a wout file [f] with sane contents, possibly incomplete, and the request
    can be satisfied. *)
Record ready (version : string) (w : world) (f : ncfile S) (ext : string) (mb nb : Z) (srt : list Z) (asp : F S) (i : Inp S) (d : vdat S) : Prop := mkReady {
  rd_here : wFS w (wout_name ext) = Some (Whole f);
  rd_file : exists la, wfile S f la asp i d /\ wsane S la i d;
  rd_wout : wout_ok i d;
  rd_flux : d_flux S d = false;
  rd_verb : verb i = 1;                    (* verbose of a new object *)
  rd_open : open_ok w;
  rd_ok : ok_inp (request i d mb nb srt);
  rd_nsurf : nsurf (request i d mb nb srt) <= 2147483644;
  rd_ns : d_ns S d <= 2147483644;
  rd_version : (String.length version < 2000)%nat
}.
(** [l] sorted *)
Definition sorted_as (l srt : list Z) : Prop := Permutation l srt /\ StronglySorted Z.le srt.
End DriverSpec.
