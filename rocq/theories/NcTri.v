(** A calculus for programs with input and output: [tri m w Q E D]: from world [w], [m] has no
    undefined behaviour; if it returns, [Q] holds, if it throws, [E], if the process dies, [D]. *)
From Coq Require Import ZArith List String Bool Lia.
From Verif Require Import Scalar Prog Wp Func Step TrigProof Vmec VmecSpec VmecRun Nc NcModel NcSpec.
Import ListNotations.
Local Open Scope Z_scope.

Section Tri.
Variable S : Scalar.
Notation obj := (obj S).
Notation world := (world S).
Notation io := (io S).
Notation file := (ncfile S).

Definition tri {A} (m : io A) (w : world) (Q : A -> world -> Prop) (E D : world -> Prop) : Prop :=
  match m w with
  | IOk a w' => Q a w'
  | IThrow _ w' => E w'
  | IUB _ => False
  | IDie w' => D w'
  end.

Lemma tri_bind {A B} (m : io A) (k : A -> io B) w Q E D :
  tri m w (fun a w' => tri (k a) w' Q E D) E D -> tri (ibind m k) w Q E D.
Proof. unfold tri, ibind. destruct (m w); auto. Qed.
Lemma tri_mono {A} (m : io A) w (Q Q' : A -> world -> Prop) (E E' D D' : world -> Prop) :
  (forall a w', Q a w' -> Q' a w') -> (forall w', E w' -> E' w') -> (forall w', D w' -> D' w') ->
  tri m w Q E D -> tri m w Q' E' D'.
Proof. unfold tri. intros H1 H2 H3. destruct (m w); auto. Qed.
Lemma tri_ret {A} (a : A) w (Q : A -> world -> Prop) E D : Q a w -> tri (iret a) w Q E D.
Proof. auto. Qed.
Lemma tri_lift {A} (p : prog S A) w (Q : A -> world -> Prop) E D :
  wp fp_any p (wO w) (fun a o ev => Q a (addEv (setO w o) ev)) -> tri (lift p) w Q E D.
Proof.
  intros H. apply (wp_run S) in H. destruct H as (a & o & ev & R & H). unfold tri, lift. now rewrite R.
Qed.
Lemma tri_obj (w : world) (Q : obj -> world -> Prop) E D : Q (wO w) w -> tri (theobj S) w Q E D.
Proof. auto. Qed.
Lemma tri_setobj o (w : world) (Q : unit -> world -> Prop) E D : Q tt (setO w o) -> tri (setobj S o) w Q E D.
Proof. auto. Qed.
Lemma tri_try (m : io unit) w (Q : unit -> world -> Prop) E D :
  tri m w Q (Q tt) D -> tri (itry m) w Q E D.
Proof. unfold tri, itry. destruct (m w); auto. Qed.

(** The parts of the world a library call leaves alone *)
Definition same_but_q (w w' : world) : Prop :=
  wO w' = wO w /\ wFS w' = wFS w /\ wOpen w' = wOpen w /\ wNext w' = wNext w.
Lemma tri_call {A} (f : world -> ires S (code A)) w (Q : code A -> world -> Prop) E (D : world -> Prop) :
  (forall w', same_but_q w w' -> (wQ w = [] -> wQ w' = []) ->
     match f w' with IOk a w2 => Q a w2 | IThrow _ w2 => E w2 | IUB _ => False | IDie w2 => D w2 end) ->
  (forall w' m, same_but_q w w' -> wQ w <> [] -> Q (Err m) w' /\ D w') ->
  tri (call f) w Q E D.
Proof.
  intros H1 H2. unfold tri, call. destruct (wQ w) as [|[| |] q] eqn:Eq.
  - apply H1; auto. split; auto.
  - apply H1; [repeat split|discriminate].
  - apply H2; [repeat split|discriminate].
  - apply (H2 _ ""%string); [repeat split|discriminate].
Qed.

End Tri.
Arguments tri {S A}. Arguments same_but_q {S}.
