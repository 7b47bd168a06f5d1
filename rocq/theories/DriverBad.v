(** Malformed control files: which of them are reported. *)
From Coq Require Import ZArith List String Ascii Bool Lia.
From Verif Require Import Scalar Prog Model Wp Func Step Spec Vmec VmecSpec Nc NcModel NcSpec NcVoc Driver DriverSpec DriverParse.
Import ListNotations.
Local Open Scope Z_scope.

(** An error is reported, and nothing but printing has been done. *)
Definition reported {S A} (w : world S) (r : ires S A) : Prop := exists m w', r = IThrow m w' /\ same_world w w'.
(** No beginning of the token is a number. *)
Definition no_number (t : string) : Prop := forall p r z, t = (p ++ r)%string -> ~ number p z.

Section Bad.
Variable S : Scalar.
Notation world := (world S).

Lemma addEv_same (w : world) e : same_world w (addEv w e).
Proof. unfold same_world. cbn. auto. Qed.

Theorem no_second version conv pyversion text ta tb r mb a (w : world) :
  tokens_of text (ta :: tb :: r) -> an_int ta mb -> no_number tb ->
  reported w (driver S version [a] (Some text) w) /\ reported w (cli S conv version pyversion [a] (Some text) w).
Proof.
  intros Ht Ha N. split.
  - inversion Ht as [|s1 t1 u1 l1 B1 So1 En1 Ht1]; subst. inversion Ht1 as [|s2 t2 u2 l2 B2 So2 En2 Ht2]; subst.
    unfold driver. rewrite say_bind. unfold ibind at 1. unfold driver_read. rewrite (next_int_num s1 ta _ mb None) by auto.
    destruct (next_int_stop s2 tb u2 None B2 So2 N En2) as (s' & E & Hb). rewrite E.
    rewrite !ival_bind, say_bind, Hb. eexists. eexists. split; [reflexivity|]. rewrite addEv2. apply addEv_same.
  - unfold cli. rewrite say_bind. unfold ibind at 1. unfold cli_read. rewrite (split_tokens _ _ Ht) by lia. rewrite (py_int_stop tb) by auto.
    destruct r as [|c r]; [|destruct (py_int ta)]; (eexists; eexists; split; [reflexivity|]; apply addEv_same).
Qed.
Theorem no_extension version conv pyversion text ta tb mb nb a (w : world) :
  tokens_of text [ta; tb] -> an_int ta mb -> an_int tb nb ->
  reported w (driver S version [a] (Some text) w) /\ reported w (cli S conv version pyversion [a] (Some text) w).
Proof.
  intros Ht Ha Hb. split.
  - inversion Ht as [|s1 t1 u1 l1 B1 So1 En1 Ht1]; subst. inversion Ht1 as [|s2 t2 u2 l2 B2 So2 En2 Ht2]; subst.
    inversion Ht2 as [s3 B3|]; subst.
    unfold driver. rewrite say_bind. unfold ibind at 1. unfold driver_read. rewrite (next_int_num s1 ta _ mb None) by auto.
    rewrite (next_int_num s2 tb _ nb None) by auto.
    rewrite !ival_bind, say_bind. cbn [bad]. unfold next_word. cbn [bad rest]. rewrite skip_all by auto. rewrite say_bind. cbn [bad].
    eexists. eexists. split; [reflexivity|]. rewrite !addEv2. apply addEv_same.
  - unfold cli. rewrite say_bind. unfold ibind at 1. unfold cli_read. rewrite (split_tokens _ _ Ht) by lia.
    eexists; eexists; split; [reflexivity|]; apply addEv_same.
Qed.
Theorem no_file version conv pyversion a (w : world) :
  reported w (driver S version [a] None w) /\ reported w (cli S conv version pyversion [a] None w).
Proof. split; (eexists; eexists; split; [reflexivity|]; apply addEv_same). Qed.
Theorem reported_both version conv pyversion a (w : world) ctl :
  ctl = None \/
  (exists text ta tb mb nb, ctl = Some text /\ tokens_of text [ta; tb] /\ an_int ta mb /\ an_int tb nb) \/
  (exists text ta tb r mb, ctl = Some text /\ tokens_of text (ta :: tb :: r) /\ an_int ta mb /\ no_number tb) ->
  reported w (driver S version [a] ctl w) /\ reported w (cli S conv version pyversion [a] ctl w).
Proof.
  intros [->|[(text & ta & tb & mb & nb & -> & H1 & H2 & H3)|(text & ta & tb & r & mb & -> & H1 & H2 & H3)]].
  - apply no_file.
  - eapply no_extension; eauto.
  - eapply no_second; eauto.
Qed.
(** The Python program reports the rest, too. *)
Theorem cli_reported version conv pyversion text l a (w : world) : tokens_of text l ->
  ((List.length l < 3)%nat \/ no_number (nth 0 l EmptyString) \/ no_number (nth 1 l EmptyString)) ->
  reported w (cli S conv version pyversion [a] (Some text) w).
Proof.
  intros Ht H. unfold cli. rewrite say_bind. unfold ibind at 1. unfold cli_read. rewrite (split_tokens _ _ Ht) by lia.
  destruct l as [|x [|y [|z l]]]; try (eexists; eexists; split; [reflexivity|]; apply addEv_same).
  destruct H as [H|[H|H]]; [cbn in H; lia| |]; cbn [nth] in H; rewrite (py_int_stop _ H); try destruct (py_int x); eexists; eexists; (split; [reflexivity|]; apply addEv_same).
Qed.
(** The C++ program does not: with one number only, nboz_in is indeterminate. *)
Theorem one_number_ub version text ta mb a (w : world) : tokens_of text [ta] -> an_int ta mb ->
  exists why, driver S version [a] (Some text) w = IUB why.
Proof.
  intros Ht Ha. inversion Ht as [|s1 t1 u1 l1 B1 So1 En1 Ht1]; subst. inversion Ht1 as [s2 B2|]; subst.
  unfold driver. rewrite say_bind. unfold ibind at 1. unfold driver_read. rewrite (next_int_num s1 ta _ mb None) by auto.
  rewrite next_int_end by auto. eexists. reflexivity.
Qed.
End Bad.

(** Cases *)
Lemma eg_in (c : ascii) l : existsb (Nat.eqb (nat_of_ascii c)) l = true -> In (nat_of_ascii c) l.
Proof. intros H. apply existsb_exists in H. destruct H as (n & H1 & H2). apply Nat.eqb_eq in H2. now rewrite H2. Qed.
Lemma eg_out (c : ascii) l : existsb (Nat.eqb (nat_of_ascii c)) l = false -> ~ In (nat_of_ascii c) l.
Proof. intros H K. apply Bool.not_true_iff_false in H. apply H. apply existsb_exists. exists (nat_of_ascii c). split; auto. apply Nat.eqb_refl. Qed.
Ltac eg_sol := split; [discriminate|]; cbn [every]; repeat split; apply eg_out; reflexivity.
Lemma eg_int c d : 0 <= d <= 9 -> c = ascii_of_nat (48 + Z.to_nat d) -> an_int (String c EmptyString) d.
Proof. intros H ->. split; [left; constructor; split; auto|]. unfold INT_MIN, INT_MAX. lia. Qed.
Lemma eg_tok1 : tokens_of "8 2" ["8"; "2"]%string.
Proof.
  apply (tk_more "" "8" " 2"); [exact I|eg_sol|right; eexists; eexists; split; [reflexivity|apply eg_in; reflexivity]|].
  apply (tk_more " " "2" ""); [split; [apply eg_in; reflexivity|exact I]|eg_sol|now left|]. now constructor.
Qed.
Lemma eg_tok2 : tokens_of "8 x" ["8"; "x"]%string.
Proof.
  apply (tk_more "" "8" " x"); [exact I|eg_sol|right; eexists; eexists; split; [reflexivity|apply eg_in; reflexivity]|].
  apply (tk_more " " "x" ""); [split; [apply eg_in; reflexivity|exact I]|eg_sol|now left|]. now constructor.
Qed.
Lemma eg_tok3 : tokens_of "8" ["8"]%string.
Proof. apply (tk_more "" "8" ""); [exact I|eg_sol|now left|]. now constructor. Qed.
Lemma eg_no : no_number "x".
Proof.
  intros p r z E N. assert (H : exists c t, p = String c t /\ c <> "x"%char).
  { destruct N as [N|[(t & -> & _)|(t & -> & _)]]; [|exists "+"%char, t; split; [auto|discriminate]|exists "-"%char, t; split; [auto|discriminate]].
    destruct (digits_head _ _ N) as (c & d & t & -> & Ed). exists c, t. split; [auto|]. intros ->. discriminate. }
  destruct H as (c & t & -> & Hc). injection E as E _. congruence.
Qed.
Lemma bad_cases : tokens_of "8 2" ["8"; "2"]%string /\ tokens_of "8 x" ["8"; "x"]%string /\ tokens_of "8" ["8"]%string /\
  an_int "8" 8 /\ an_int "2" 2 /\ no_number "x".
Proof. splits; [apply eg_tok1|apply eg_tok2|apply eg_tok3|apply eg_int; [lia|reflexivity]|apply eg_int; [lia|reflexivity]|apply eg_no]. Qed.
