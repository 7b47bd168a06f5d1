(** C80: the array members always have as many elements as their rows and columns say, and
    vectors have one column: preserved by programs over the object. *)
From Coq Require Import ZArith List String Bool Lia.
From Verif Require Import Scalar Prog Model Wp Func Step FuncExt Vmec Py.
Import ListNotations.
Local Open Scope Z_scope.

Section Sound.
Context {S : Scalar}.
Notation obj := (obj S).
Notation prog := (prog S).

(** [a] can be the value of the member [f]. *)
Definition fits_in (f : afield) (a : arr S) : Prop := wf_arr a /\ (is_vector f = true -> acols a = 1).
Definition column {T} (a : array T) : Prop := wf_arr a /\ acols a = 1.
Record tidy (o : obj) : Prop := {
  tidy_N : forall f, column (oN o f);
  tidy_A : forall f, fits_in f (oA o f) }.
Lemma tidy_wf o : tidy o -> wf_obj o.
Proof. intros [N A]. constructor; intros f; [apply N|apply A]. Qed.
Lemma tidy_new : tidy (obj_new S).
Proof.
  constructor; intros f; [split; [apply wf_empty_vec|reflexivity]|].
  destruct f; (split; [first [apply wf_empty_vec|apply wf_empty_mat]|intros E; first [reflexivity|discriminate E]]).
Qed.
Lemma tidy_updI o f v : tidy o -> tidy (updI o f v).
Proof. intros [N A]. now constructor. Qed.
Lemma tidy_updB o f v : tidy o -> tidy (updB o f v).
Proof. intros [N A]. now constructor. Qed.
Lemma tidy_updF o f v : tidy o -> tidy (updF o f v).
Proof. intros [N A]. now constructor. Qed.
Lemma tidy_updN o f v : tidy o -> column v -> tidy (updN o f v).
Proof. intros [N A] H. constructor; [|exact A]. intros g. cbn. destruct (nfield_eq_dec g f); auto. Qed.
Lemma tidy_updA o f v : tidy o -> fits_in f v -> tidy (updA o f v).
Proof. intros [N A] H. constructor; [exact N|]. intros g. cbn. destruct (afield_eq_dec g f); [subst|]; auto. Qed.

Lemma len_set {T} (l : list T) : forall n x, List.length (set_nth l n x) = List.length l.
Proof. induction l; intros [|n] x; cbn; auto. Qed.
Lemma wf_aput {T} (a : array T) i x : wf_arr a -> wf_arr (aput a i x).
Proof. unfold wf_arr. cbn. unfold zset. now rewrite len_set. Qed.
Lemma column_aput {T} (a : array T) i x : column a -> column (aput a i x).
Proof. intros (W & E). split; [now apply wf_aput|exact E]. Qed.
Lemma fits_aput f (a : arr S) i x : fits_in f a -> fits_in f (aput a i x).
Proof. intros (W & E). split; [now apply wf_aput|exact E]. Qed.

(** Along every path of [p], whatever the members are read as, only values that fit are stored;
    the result satisfies [Q]. *)
Fixpoint sound {A} (p : prog A) (Q : A -> Prop) : Prop :=
  match p with
  | Ret a => Q a
  | Throw _ | UB _ => True
  | GetI _ k => forall v, sound (k v) Q
  | SetI _ _ k | SetB _ _ k | SetF _ _ k | PutA _ _ _ k | Out _ k => sound k Q
  | GetB _ k => forall v, sound (k v) Q
  | GetF _ k => forall v, sound (k v) Q
  | GetN _ _ k => forall v, sound (k v) Q
  | SizeN _ k => forall v, sound (k v) Q
  | SetNArr _ v k => column v /\ sound k Q
  | GetA _ _ k => forall v, sound (k v) Q
  | DimA _ k => forall r c, sound (k r c) Q
  | GetArr f k => forall a, fits_in f a -> sound (k a) Q
  | SetArr f v k => fits_in f v /\ sound k Q
  end.
Lemma sound_run {A} (p : prog A) : forall (Q : A -> Prop) o, sound p Q -> tidy o ->
  match run p o with ROk a o' _ => tidy o' /\ Q a | RThrow _ o' _ => tidy o' | RUB _ => True end.
Proof.
  induction p; cbn; intros Q o Hp T; auto.
  - destruct (oI o f); [apply H; auto|exact Logic.I].
  - apply IHp; [auto|now apply tidy_updI].
  - destruct (oB o f); [apply H; auto|exact Logic.I].
  - apply IHp; [auto|now apply tidy_updB].
  - destruct (oF o f); [apply H; auto|exact Logic.I].
  - apply IHp; [auto|now apply tidy_updF].
  - destruct (znth _ _) as [[v|]|]; [apply H; auto|exact Logic.I|exact Logic.I].
  - apply H; auto.
  - apply IHp; [apply Hp|apply tidy_updN; [auto|apply Hp]].
  - destruct (znth _ _) as [[v|]|]; [apply H; auto|exact Logic.I|exact Logic.I].
  - destruct (znth _ _) as [?|]; [|exact Logic.I]. apply IHp; [auto|]. apply tidy_updA; [auto|]. apply fits_aput. apply T.
  - apply H; auto.
  - apply H; [|auto]. apply Hp. apply T.
  - apply IHp; [apply Hp|apply tidy_updA; [auto|apply Hp]].
  - specialize (IHp Q o Hp T). destruct (run p o); cbn; auto.
Qed.
Lemma sound_mono {A} (p : prog A) : forall (P Q : A -> Prop), (forall a, P a -> Q a) -> sound p P -> sound p Q.
Proof. induction p; cbn; intros P Q H' Hp; try (intros; firstorder; fail); eauto. Qed.
Lemma sound_bind {A B} (p : prog A) (k : A -> prog B) P Q : sound p P -> (forall a, P a -> sound (k a) Q) -> sound (bind p k) Q.
Proof. intros Hp Hk. induction p; cbn in *; firstorder. Qed.
Definition any {A} : A -> Prop := fun _ => True.
Lemma sound_any {A} (p : prog A) P : sound p P -> sound p any.
Proof. apply sound_mono. unfold any. auto. Qed.
Lemma sound_then {A B} (p : prog A) (k : A -> prog B) Q : sound p any -> (forall a, sound (k a) Q) -> sound (bind p k) Q.
Proof. intros Hp Hk. apply (sound_bind _ _ any); auto. Qed.
Lemma sound_from {St} (Inv : St -> Prop) n : forall i st (body : Z -> St -> prog St),
  Inv st -> (forall j s, Inv s -> sound (body j s) Inv) -> sound (for_from n i st body) Inv.
Proof. induction n; intros i st body H0 H; cbn; [exact H0|]. apply (sound_bind _ _ Inv); [now apply H|]. intros a Ha. apply IHn; auto. Qed.
Lemma sound_for {St} (Inv : St -> Prop) lo hi st (body : Z -> St -> prog St) :
  Inv st -> (forall j s, Inv s -> sound (body j s) Inv) -> sound (for_ lo hi st body) Inv.
Proof. apply sound_from. Qed.

(** Operations on arrays *)
Definition wide {T} (c : Z) (a : array T) : Prop := wf_arr a /\ acols a = c.
Lemma wf_zrep {T} (x : option T) r c : 0 <= r -> 0 <= c -> wide c (mkArr r c (zrepeat x (r * c))).
Proof. intros. split; [|reflexivity]. unfold wf_arr, zrepeat. cbn. rewrite repeat_length. nia. Qed.
Lemma sound_zeros {T} (z : T) r c : sound (zeros z r c) (wide c).
Proof.
  unfold zeros. destruct (r <? 0) eqn:E; cbn; [exact Logic.I|]. destruct (c <? 0) eqn:E'; cbn; [exact Logic.I|].
  apply Z.ltb_ge in E. apply Z.ltb_ge in E'. now apply wf_zrep.
Qed.
Lemma sound_resize {T} (a : array T) r c : wf_arr a -> sound (resize a r c) (wide c).
Proof.
  intros W. unfold resize. destruct (r <? 0) eqn:E; cbn; [exact Logic.I|]. destruct (c <? 0) eqn:E'; cbn; [exact Logic.I|].
  apply Z.ltb_ge in E. apply Z.ltb_ge in E'. destruct (_ =? _) eqn:E2; cbn; [|now apply wf_zrep].
  apply Z.eqb_eq in E2. split; [|reflexivity]. unfold wf_arr, asize in *. cbn. lia.
Qed.
Lemma sound_vset {T} (P : array T -> Prop) a i x : (forall b j y, P b -> P (aput b j y)) -> P a -> sound (vset a i x) P.
Proof. intros H Ha. unfold vset. destruct (znth _ _); cbn; auto. Qed.
Lemma sound_mset {T} (P : array T -> Prop) a i j x : (forall b j y, P b -> P (aput b j y)) -> P a -> sound (mset a i j x) P.
Proof. intros H Ha. unfold mset. destruct (inside _ _ _ _); [now apply sound_vset|exact Logic.I]. Qed.
Lemma sound_vget {T} (a : array T) i : sound (vget a i) any.
Proof. unfold vget. destruct (znth _ _) as [[?|]|]; exact Logic.I. Qed.
Lemma sound_mget {T} (a : array T) i j : sound (mget a i j) any.
Proof. unfold mget. destruct (inside _ _ _ _); [apply sound_vget|exact Logic.I]. Qed.
Lemma sound_vset_any {T} (a : array T) i x : sound (vset a i x) any.
Proof. apply sound_vset; unfold any; auto. Qed.
Lemma sound_mset_any {T} (a : array T) i j x : sound (mset a i j x) any.
Proof. apply sound_mset; unfold any; auto. Qed.
Lemma sound_vinc (a : arr S) i x : sound (vinc a i x) any.
Proof. apply sound_then; [apply sound_vget|]. intros. apply sound_vset_any. Qed.
Lemma sound_zeros_any {T} (z : T) r c : sound (zeros z r c) any.
Proof. unfold zeros. destruct (_ || _); exact Logic.I. Qed.
Lemma sound_resize_any {T} (a : array T) r c : sound (resize a r c) any.
Proof. unfold resize. destruct (_ || _); [exact Logic.I|]. destruct (_ =? _); exact Logic.I. Qed.
Lemma sound_int z : sound (int_ z) any.
Proof. unfold int_. destruct (in_int z); exact Logic.I. Qed.
Lemma sound_idiv a b : sound (idiv a b) any.
Proof. unfold idiv. destruct (_ =? _); [exact Logic.I|apply sound_int]. Qed.
Lemma sound_irem a b : sound (irem a b) any.
Proof. unfold irem. destruct (_ =? _); exact Logic.I. Qed.
Lemma sound_getm f i j : sound (getm f i j) any.
Proof. intros r c. cbn. destruct (inside _ _ _ _); [intros ?|]; exact Logic.I. Qed.
Lemma sound_putm f i j x : sound (putm f i j x) any.
Proof. intros r c. cbn. destruct (inside _ _ _ _); exact Logic.I. Qed.
Lemma wide_column {T} (a : array T) : wide 1 a -> column a.
Proof. auto. Qed.
Lemma wide_fits f c (a : arr S) : (is_vector f = true -> c = 1) -> wide c a -> fits_in f a.
Proof. intros H (W & E). split; [exact W|]. rewrite E. exact H. Qed.
Lemma wide_aput {T} c (a : array T) i x : wide c a -> wide c (aput a i x).
Proof. intros (W & E). split; [now apply wf_aput|exact E]. Qed.
Lemma wide_wf {T} c (a : array T) : wide c a -> wf_arr a.
Proof. now intros []. Qed.
End Sound.
