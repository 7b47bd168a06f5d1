(** Both programs read a control file as the grammar of DriverSpec.v says. *)
From Coq Require Import ZArith List String Ascii Bool Lia.
From Verif Require Import Scalar Prog Model Wp Func Step Spec Vmec VmecSpec Nc NcModel NcSpec NcVoc Driver DriverSpec.
Import ListNotations.
Local Open Scope Z_scope.
Ltac splits := repeat match goal with |- _ /\ _ => split end.

(** ** Characters *)
Lemma c_space_iff c : c_space c = true <-> white c.
Proof. unfold white. destruct c as [[] [] [] [] [] [] [] []]; vm_compute; split; intro H; try reflexivity; try discriminate H; try tauto;
  repeat (destruct H as [H|H]; [discriminate H|]); contradiction. Qed.
Lemma py_space_iff c : py_space c = true <-> white c \/ odd_white c.
Proof. unfold white, odd_white. destruct c as [[] [] [] [] [] [] [] []]; vm_compute; split; intro H; try reflexivity; try discriminate H; try tauto;
  repeat (destruct H as [H|H]; try discriminate H); try contradiction. Qed.
Lemma digit_of c d : digit_char c d -> digit c = Some d.
Proof.
  intros (H & ->). assert (X : d = 0 \/ d = 1 \/ d = 2 \/ d = 3 \/ d = 4 \/ d = 5 \/ d = 6 \/ d = 7 \/ d = 8 \/ d = 9) by lia.
  repeat destruct X as [->|X]; try reflexivity. now subst.
Qed.
Lemma digit_inv c d : digit c = Some d -> digit_char c d.
Proof.
  unfold digit_char. destruct c as [[] [] [] [] [] [] [] []]; vm_compute; intro H; try discriminate H; injection H as <-; (split; [split; discriminate|reflexivity]).
Qed.
Lemma digit_not_space c d : digit c = Some d -> c_space c = false /\ py_space c = false /\ c <> "_"%char /\ c <> "+"%char /\ c <> "-"%char.
Proof. destruct c as [[] [] [] [] [] [] [] []]; vm_compute; intro H; try discriminate H; repeat split; discriminate. Qed.
Lemma white_not_digit c : white c -> digit c = None.
Proof.
  intros W. apply c_space_iff in W. destruct (digit c) as [d|] eqn:E; auto. apply digit_not_space in E. destruct E. congruence.
Qed.
Lemma solid_spaces c : ~ white c /\ ~ odd_white c -> c_space c = false /\ py_space c = false.
Proof.
  intros (H1 & H2). split.
  - destruct (c_space c) eqn:E; auto. apply c_space_iff in E. contradiction.
  - destruct (py_space c) eqn:E; auto. apply py_space_iff in E. tauto.
Qed.

(** ** Strings *)
Lemma sapp_assoc a b c : ((a ++ b) ++ c = a ++ b ++ c)%string.
Proof. induction a; cbn; congruence. Qed.
Lemma sapp_nil a : (a ++ "" = a)%string.
Proof. induction a; cbn; congruence. Qed.
Lemma slen_app a b : String.length (a ++ b) = (String.length a + String.length b)%nat.
Proof. induction a; cbn; congruence. Qed.
Definition ends (u : string) : Prop := u = EmptyString \/ exists c r, u = String c r /\ white c.

Lemma skip_blank s t : blank s -> skip_ws (s ++ t) = skip_ws t.
Proof. induction s as [|c s IH]; cbn; [auto|]. intros (W & B). apply c_space_iff in W. rewrite W. auto. Qed.
Lemma skip_solid t u : solid t -> skip_ws (t ++ u) = (t ++ u)%string.
Proof. intros (N & E). destruct t as [|c t]; [contradiction|]. cbn in *. destruct E as (E & _). apply solid_spaces in E. now rewrite (proj1 E). Qed.
Lemma skip_all s : blank s -> skip_ws s = EmptyString.
Proof. intros B. rewrite <- (sapp_nil s). rewrite skip_blank by auto. reflexivity. Qed.

(** ** Numbers *)
Lemma digits_app s z : digits_of s z -> exists k,
  (forall u acc, digits (s ++ u) acc = digits u (acc * k + z)) /\ k = 10 ^ Z.of_nat (String.length s).
Proof.
  intros H. induction H as [c d Hc|s z c d Hs IH Hc].
  - exists 10. split; [|reflexivity]. intros u acc. cbn. rewrite (digit_of c d Hc). f_equal. lia.
  - destruct IH as (k & IH & Ek). exists (10 * k). split.
    + intros u acc. rewrite sapp_assoc, IH. cbn. rewrite (digit_of c d Hc). f_equal. lia.
    + rewrite slen_app, Ek. cbn [String.length]. rewrite Nat.add_1_r, Nat2Z.inj_succ, Z.pow_succ_r by lia. lia.
Qed.
Lemma digits_value s z u : digits_of s z -> ends u -> digits (s ++ u) 0 = (z, u).
Proof.
  intros H E. destruct (digits_app s z H) as (k & D & _). rewrite D. replace (0 * k + z) with z by lia.
  destruct E as [->|(c & r & -> & W)]; cbn; [reflexivity|]. now rewrite white_not_digit.
Qed.
Lemma digits_head s z : digits_of s z -> exists c d t, s = String c t /\ digit c = Some d.
Proof.
  induction 1 as [c d Hc|s z c d Hs (c1 & d1 & t & -> & E) Hc].
  - exists c, d, EmptyString. split; [auto|]. now apply digit_of.
  - exists c1, d1, (t ++ String c EmptyString)%string. auto.
Qed.
Lemma digits_all s z : digits_of s z -> every (fun c => exists d, digit c = Some d) s.
Proof.
  assert (A : forall P a b, every P (a ++ b) <-> every P a /\ every P b) by (intros P a b; induction a; cbn; tauto).
  induction 1 as [c d Hc|s z c d Hs IH Hc].
  - cbn. split; [|exact I]. exists d. now apply digit_of.
  - apply A. split; auto. cbn. split; [|exact I]. exists d. now apply digit_of.
Qed.
Lemma every_imp (P Q : ascii -> Prop) s : (forall c, P c -> Q c) -> every P s -> every Q s.
Proof. intros H. induction s; cbn; [auto|]. intros (A & B). auto. Qed.

Lemma sign_digit c t d : digit c = Some d -> sign (String c t) = (false, String c t).
Proof. destruct c as [[] [] [] [] [] [] [] []]; vm_compute; intro H; try discriminate H; reflexivity. Qed.
(** The three shapes of a number *)
Lemma number_sign s z u : number s z -> exists neg v t, sign (s ++ u) = (neg, (t ++ u)%string) /\ digits_of t v /\
  z = (if neg : bool then - v else v) /\ sign s = (neg, t).
Proof.
  intros [H|[(t & -> & H)|(t & -> & H)]].
  - exists false, z, s. splits; auto.
    + destruct (digits_head s z H) as (c & d & t & -> & E). cbn [append]. now apply sign_digit with d.
    + destruct (digits_head s z H) as (c & d & t & -> & E). now apply sign_digit with d.
  - exists false, z, t. splits; auto.
  - exists true, (- z), t. splits; auto. lia.
Qed.
Lemma in_int_iff z : INT_MIN <= z <= INT_MAX -> in_int z = true.
Proof. intros H. unfold in_int. apply andb_true_iff. split; apply Z.leb_le; lia. Qed.

Lemma next_int_num s t u z old : blank s -> solid t -> ends u -> an_int t z ->
  next_int (mkIns (s ++ t ++ u) false) old = (Some z, mkIns u false).
Proof.
  intros B So En (N & R). unfold next_int. cbn [bad rest]. rewrite skip_blank by auto. rewrite skip_solid by auto.
  destruct (number_sign t z u N) as (neg & v & t' & E & D & Ez & _).
  destruct t as [|c t]; [destruct So; contradiction|]. cbn [append] in *. rewrite E.
  destruct (digits_head _ _ D) as (c1 & d1 & t1 & -> & Ed). cbn [append]. unfold is_digit. rewrite Ed.
  change (String c1 (t1 ++ u)) with (String c1 t1 ++ u)%string. rewrite (digits_value _ _ u D) by exact En.
  rewrite <- Ez. now rewrite in_int_iff.
Qed.
Lemma next_int_end s old : blank s -> next_int (mkIns s false) old = (old, mkIns EmptyString true).
Proof. intros B. unfold next_int. cbn [bad rest]. now rewrite skip_all. Qed.
Lemma digits_pre c d : digit c = Some d -> digits_of (String c EmptyString) d.
Proof. intros H. constructor. now apply digit_inv. Qed.
Lemma next_int_stop s t u old : blank s -> solid t -> (forall p r z, t = (p ++ r)%string -> ~ number p z) ->
  ends u -> exists s', next_int (mkIns (s ++ t ++ u) false) old = (Some 0, s') /\ bad s' = true.
Proof.
  intros B So N En. unfold next_int. cbn [bad rest]. rewrite skip_blank by auto. rewrite skip_solid by auto.
  destruct t as [|c t]; [destruct So; contradiction|]. cbn [append].
  assert (X : forall neg v, sign (String c (t ++ u)) = (neg, v) -> match v with String c1 _ => is_digit c1 = false | EmptyString => True end).
  { intros neg v E. destruct v as [|c1 r]; auto. unfold is_digit. destruct (digit c1) as [d|] eqn:Ed; auto. exfalso.
    assert (Sg : (c = c1 /\ r = (t ++ u)%string) \/ (c = "+"%char /\ (t ++ u)%string = String c1 r) \/ (c = "-"%char /\ (t ++ u)%string = String c1 r)).
    { destruct c as [[] [] [] [] [] [] [] []]; cbn in E; injection E as <- E; try (injection E as <- <-; left; split; reflexivity); auto. }
    assert (Hd : (t ++ u)%string = String c1 r -> exists t1, t = String c1 t1).
    { intros Et. destruct t as [|c2 t1]; [|injection Et as <- _; eauto]. cbn in Et. subst u.
      destruct En as [En|(c2 & r2 & En & W)]; [discriminate|]. injection En as -> ->. rewrite white_not_digit in Ed by auto. discriminate. }
    destruct Sg as [(-> & _)|[(-> & Et)|(-> & Et)]].
    - apply (N (String c1 EmptyString) t d eq_refl). left. now apply digits_pre.
    - destruct (Hd Et) as (t1 & ->). apply (N (String "+" (String c1 EmptyString)) t1 d eq_refl). right. left. eexists. split; [reflexivity|]. now apply digits_pre.
    - destruct (Hd Et) as (t1 & ->). apply (N (String "-" (String c1 EmptyString)) t1 (- d) eq_refl). right. right. eexists. split; [reflexivity|].
      rewrite Z.opp_involutive. now apply digits_pre. }
  destruct (sign (String c (t ++ u))) as (neg & v). specialize (X neg v eq_refl). destruct v as [|c1 r]; [|rewrite X]; eexists; split; reflexivity.
Qed.
Lemma word_solid (sp : ascii -> bool) t u : every (fun c => sp c = false) t -> (u = EmptyString \/ exists c r, u = String c r /\ sp c = true) ->
  word sp (t ++ u) = (t, u).
Proof.
  intros E H. induction t as [|c t IH]; cbn in *.
  - destruct H as [->|(c & r & -> & H)]; cbn; [reflexivity|]. now rewrite H.
  - destruct E as (E1 & E2). rewrite E1, IH by auto. reflexivity.
Qed.
Lemma solid_c t : solid t -> every (fun c => c_space c = false) t.
Proof. intros (_ & H). revert H. apply every_imp. intros c H. now apply solid_spaces. Qed.
Lemma solid_py t : solid t -> every (fun c => py_space c = false) t.
Proof. intros (_ & H). revert H. apply every_imp. intros c H. now apply solid_spaces. Qed.
Lemma ends_c u : ends u -> u = EmptyString \/ exists c r, u = String c r /\ c_space c = true.
Proof. intros [->|(c & r & -> & W)]; [auto|]. right. exists c, r. split; auto. now apply c_space_iff. Qed.
Lemma ends_py u : ends u -> u = EmptyString \/ exists c r, u = String c r /\ py_space c = true.
Proof. intros [->|(c & r & -> & W)]; [auto|]. right. exists c, r. split; auto. apply py_space_iff. auto. Qed.
Lemma next_word_tok s t u old : blank s -> solid t -> ends u -> next_word (mkIns (s ++ t ++ u) false) old = (t, mkIns u false).
Proof.
  intros B So En. unfold next_word. cbn [bad rest]. rewrite skip_blank by auto. rewrite skip_solid by auto.
  pose proof (word_solid c_space t u (solid_c t So) (ends_c u En)) as E.
  destruct t as [|c t]; [destruct So; contradiction|]. cbn [append] in *. now rewrite E.
Qed.

(** ** Python *)
Lemma split_blank s u : blank s -> forall fuel, (String.length (s ++ u) < fuel)%nat ->
  exists fuel', (String.length u < fuel')%nat /\ split fuel (s ++ u) = split fuel' u.
Proof.
  induction s as [|c s IH]; intros B fuel H.
  - exists fuel. auto.
  - destruct fuel as [|fuel]; [cbn in H; lia|]. destruct B as (W & B). cbn [append split].
    assert (E : py_space c = true) by (apply py_space_iff; auto). rewrite E. cbn in H. apply IH; auto. lia.
Qed.
Lemma split_tokens text l : tokens_of text l -> forall fuel, (String.length text < fuel)%nat -> split fuel text = l.
Proof.
  induction 1 as [s B|s t u l B So En Ht IH]; intros fuel H.
  - rewrite <- (sapp_nil s) in H. rewrite <- (sapp_nil s). destruct (split_blank s EmptyString B fuel H) as (f' & H' & ->). destruct f'; reflexivity.
  - destruct (split_blank s (t ++ u) B fuel H) as (f' & H' & ->). destruct f' as [|f']; [lia|].
    destruct t as [|c t]; [destruct So; contradiction|]. pose proof (solid_py _ So) as Sp. cbn in Sp. destruct Sp as (S1 & S2).
    cbn [append split]. rewrite S1. change (String c (t ++ u)) with (String c t ++ u)%string.
    rewrite word_solid by (cbn; auto using ends_py). f_equal. apply IH. cbn in H'. rewrite slen_app in H'. lia.
Qed.
Lemma py_digits_app s z : digits_of s z -> forall acc, exists k, k = 10 ^ Z.of_nat (String.length s) /\ py_digits s acc = Some (acc * k + z).
Proof.
  intros H acc. exists (10 ^ Z.of_nat (String.length s)). split; [reflexivity|].
  pose proof (digits_all s z H) as A.
  destruct (digits_app s z H) as (k & D & Ek). specialize (D EmptyString acc). rewrite sapp_nil in D. rewrite <- Ek. cbn in D.
  assert (G : forall s acc, s <> EmptyString -> every (fun c => exists d, digit c = Some d) s -> py_digits s acc = Some (fst (digits s acc))).
  { clear. induction s as [|c s IH]; intros acc N A; [contradiction|]. destruct A as ((d & Ed) & A). cbn [py_digits digits]. rewrite Ed.
    destruct s as [|c1 s]; [reflexivity|]. pose proof A as ((d1 & Ed1) & _).
    rewrite <- IH by (auto; discriminate). destruct (digit_not_space _ _ Ed1) as (_ & _ & Nu & _).
    destruct c1 as [[] [] [] [] [] [] [] []]; try reflexivity. now contradiction Nu. }
  rewrite G; auto; [|destruct (digits_head _ _ H) as (c & d & t & -> & _); discriminate]. now rewrite D.
Qed.
Lemma py_int_num t z : number t z -> py_int t = Some z.
Proof.
  intros N. destruct (number_sign t z EmptyString N) as (neg & v & t' & _ & D & Ez & Sg). unfold py_int. rewrite Sg.
  destruct (py_digits_app t' v D 0) as (k & _ & ->). cbn. now rewrite Ez.
Qed.
Lemma py_int_stop t : (forall p r z, t = (p ++ r)%string -> ~ number p z) -> py_int t = None.
Proof.
  intros N. unfold py_int. destruct (sign t) as (neg & u) eqn:E.
  assert (X : py_digits u 0 = None); [|now rewrite X].
  destruct u as [|c1 r]; [reflexivity|]. cbn [py_digits]. destruct (digit c1) as [d|] eqn:Ed; [|reflexivity]. exfalso.
  destruct t as [|c t]; [discriminate E|].
  assert (Sg : (c = c1 /\ r = t) \/ (c = "+"%char /\ t = String c1 r) \/ (c = "-"%char /\ t = String c1 r)).
  { destruct c as [[] [] [] [] [] [] [] []]; cbn in E; injection E as <- E; try (injection E as <- <-; left; split; reflexivity); auto. }
  destruct Sg as [(-> & _)|[(-> & ->)|(-> & ->)]].
  - apply (N (String c1 EmptyString) t d eq_refl). left. now apply digits_pre.
  - apply (N (String "+" (String c1 EmptyString)) r d eq_refl). right. left. eexists. split; [reflexivity|]. now apply digits_pre.
  - apply (N (String "-" (String c1 EmptyString)) r (- d) eq_refl). right. right. eexists. split; [reflexivity|].
    rewrite Z.opp_involutive. now apply digits_pre.
Qed.

Section Parse.
Variable S : Scalar.
Notation world := (world S).
Notation event := (event S).

Lemma addEv2 (w : world) a b : addEv (addEv w a) b = addEv w (a ++ b).
Proof. unfold addEv. cbn. now rewrite app_assoc. Qed.
Lemma say_bind {B} tag zs xs (k : unit -> io S B) (w : world) : ibind (say tag zs xs) k w = k tt (addEv w [mkEv tag zs xs]).
Proof. reflexivity. Qed.
Lemma ival_bind {B} z (k : Z -> io S B) (w : world) : ibind (ival S (Some z)) k w = k z w.
Proof. reflexivity. Qed.

(** What is printed for each surface number *)
Definition read_lines (l : list Z) : list event := map (fun v => mkEv "Read value" [v] []) l.
Lemma read_surfs_ok text : forall r l, tokens_of text r -> surfaces r l -> forall fuel val acc (w : world), (String.length text < fuel)%nat ->
  read_surfs S fuel (mkIns text false) val acc w = IOk (acc ++ l) (addEv w (read_lines l ++ [mkEv "Unable to read more." [] []])).
Proof.
  intros r l Ht. revert l. induction Ht as [s B|s t u r B So En Ht IH]; intros l Hs fuel val acc w Hf.
  - inversion Hs; subst. destruct fuel as [|fuel]; [lia|]. cbn [read_surfs]. rewrite next_int_end by auto. cbn [bad].
    rewrite say_bind. now rewrite app_nil_r.
  - destruct fuel as [|fuel]; [lia|]. cbn [read_surfs]. inversion Hs as [|t1 l1 z zs Hz Hl|t1 l1 Hn]; subst.
    + rewrite (next_int_num s t u z val) by auto. cbn [bad]. rewrite ival_bind, say_bind.
      rewrite (IH zs Hl).
      * rewrite <- app_assoc, addEv2. reflexivity.
      * rewrite !slen_app in Hf. destruct t; [destruct So; contradiction|]. cbn [String.length] in Hf. lia.
    + destruct (next_int_stop s t u val B So Hn En) as (s' & E & Hb). rewrite E, Hb. rewrite say_bind. now rewrite app_nil_r.
Qed.
Definition head_lines (mb nb : Z) (ext : string) : list event :=
  [mkEv "Read mboz, nboz" [mb; nb] []; mkEv ("Read extension = " ++ ext) [] []].
Lemma driver_reads text mb nb ext l a (w : world) : control text mb nb ext l ->
  driver_read S a (Some text) w = IOk (mb, nb, ext, l)
    (addEv w (head_lines mb nb ext ++ read_lines l ++ [mkEv "Unable to read more." [] []; mkEv "Read compute_surfs" l []])).
Proof.
  intros (ta & tb & r & Ht & Ha & Hb & Hs). unfold driver_read.
  inversion Ht as [|s1 t1 u1 l1 B1 So1 En1 Ht1]; subst. inversion Ht1 as [|s2 t2 u2 l2 B2 So2 En2 Ht2]; subst.
  inversion Ht2 as [|s3 t3 u3 l3 B3 So3 En3 Ht3]; subst.
  rewrite (next_int_num s1 ta _ mb None) by auto. rewrite (next_int_num s2 tb _ nb None) by auto.
  rewrite !ival_bind, say_bind. cbn [bad]. rewrite next_word_tok by auto. rewrite say_bind. cbn [bad].
  unfold ibind at 1. rewrite (read_surfs_ok u3 r l Ht3 Hs).
  - cbn [app]. unfold ibind. cbn. rewrite !addEv2. unfold head_lines. cbn. rewrite <- app_assoc. reflexivity.
  - rewrite !slen_app. lia.
Qed.
Definition stops (r : list string) (l : list Z) : bool := negb (List.length r =? List.length l)%nat.
Lemma cli_surfs_ok r l : surfaces r l -> forall acc (w : world), exists e,
  cli_surfs S r acc w = IOk (acc ++ l) (addEv w (read_lines l ++ e)) /\
  (e = [] /\ List.length r = List.length l \/ e = [mkEv "Unable to read more." [] []] /\ (List.length l < List.length r)%nat).
Proof.
  induction 1 as [|t r z zs Hz Hs IH|t r N]; intros acc w.
  - exists []. cbn. split; [|auto]. rewrite app_nil_r. unfold addEv. rewrite app_nil_r. now destruct w.
  - cbn [cli_surfs]. rewrite (py_int_num t z) by apply Hz. rewrite say_bind.
    destruct (IH (acc ++ [z]) (addEv w [mkEv "Read value" [z] []])) as (e & E & He). exists e. rewrite E, <- app_assoc, addEv2. cbn. split; [reflexivity|].
    destruct He as [(-> & He)|(-> & He)]; [left|right]; split; auto; lia.
  - cbn [cli_surfs]. rewrite py_int_stop by auto. rewrite say_bind. exists [mkEv "Unable to read more." [] []]. rewrite app_nil_r. cbn. split; [reflexivity|]. right. split; [auto|lia].
Qed.
Lemma cli_reads text mb nb ext l a (w : world) : control text mb nb ext l ->
  exists e, cli_read S a (Some text) w = IOk (mb, nb, ext, l) (addEv w (head_lines mb nb ext ++ read_lines l ++ e)) /\
    (e = [] \/ e = [mkEv "Unable to read more." [] []]).
Proof.
  intros (ta & tb & r & Ht & Ha & Hb & Hs). unfold cli_read. rewrite (split_tokens _ _ Ht) by lia.
  rewrite (py_int_num ta mb), (py_int_num tb nb) by (apply Ha || apply Hb). rewrite !say_bind.
  destruct (cli_surfs_ok r l Hs [] (addEv (addEv w [mkEv "Read mboz, nboz" [mb; nb] []]) [mkEv ("Read extension = " ++ ext) [] []])) as (e & E & He).
  unfold ibind. rewrite E. exists e. rewrite !addEv2. split; [reflexivity|]. tauto.
Qed.
End Parse.
