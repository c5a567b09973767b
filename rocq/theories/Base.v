(* Base.v: small helpers shared by the models.  Nothing here models repository
   code except where a comment says so. *)
From Coq Require Export String Ascii.
From Coq Require Export Arith ZArith Lia Bool List Permutation.
Export ListNotations.
Open Scope string_scope.
Open Scope list_scope.

Set Implicit Arguments.

(* Replace element [i] of a list (no effect when out of range). *)
Fixpoint list_set {A} (l : list A) (i : nat) (x : A) : list A :=
  match l, i with
  | [], _ => []
  | _ :: t, O => x :: t
  | h :: t, S j => h :: list_set t j x
  end.

Lemma list_set_length {A} (l : list A) i x : length (list_set l i x) = length l.
Proof. revert i; induction l as [|h t IH]; intros [|i]; simpl; auto. Qed.

Lemma nth_error_list_set_eq {A} (l : list A) i x :
  i < length l -> nth_error (list_set l i x) i = Some x.
Proof.
  revert i; induction l as [|h t IH]; intros [|i] H; simpl in *; try lia; auto.
  apply IH; lia.
Qed.

Lemma nth_error_list_set_neq {A} (l : list A) i j x :
  i <> j -> nth_error (list_set l i x) j = nth_error l j.
Proof.
  revert i j; induction l as [|h t IH]; intros [|i] [|j] H; simpl; auto; try lia.
Qed.

Lemma list_set_split {A} (l1 l2 : list A) y x :
  list_set (l1 ++ y :: l2) (length l1) x = l1 ++ x :: l2.
Proof. induction l1 as [|h t IH]; simpl; [reflexivity|now rewrite IH]. Qed.

Lemma nth_error_split_at {A} (l : list A) i y :
  nth_error l i = Some y -> exists l1 l2, l = l1 ++ y :: l2 /\ length l1 = i.
Proof. intros H. destruct (nth_error_split l i H) as (l1 & l2 & H1 & H2). eauto. Qed.

(* Fortran TRIM: remove trailing blanks (intrinsic, Fortran 2008 13.7.169). *)
Fixpoint rtrim (s : string) : string :=
  match s with
  | EmptyString => EmptyString
  | String c r =>
      match rtrim r with
      | EmptyString => if Ascii.eqb c " "%char then EmptyString else String c EmptyString
      | r' => String c r'
      end
  end.

Lemma rtrim_idem s : rtrim (rtrim s) = rtrim s.
Proof.
  induction s as [|c r IH]; simpl; [reflexivity|].
  destruct (rtrim r) as [|c' r'] eqn:E.
  - destruct (Ascii.eqb c " ") eqn:Ec; simpl; [reflexivity|now rewrite Ec].
  - simpl. simpl in IH. now rewrite IH.
Qed.

(* Fortran character equality: the shorter operand is blank-padded, so
   trailing blanks are not significant (Fortran 2008 7.1.5.5.1). *)
Definition feqb (a b : string) : bool := String.eqb (rtrim a) (rtrim b).

Lemma feqb_spec a b : feqb a b = true <-> rtrim a = rtrim b.
Proof. unfold feqb. apply String.eqb_eq. Qed.

Lemma feqb_refl a : feqb a a = true.
Proof. apply feqb_spec; reflexivity. Qed.

Lemma feqb_false a b : feqb a b = false <-> rtrim a <> rtrim b.
Proof. unfold feqb. apply String.eqb_neq. Qed.

Lemma NoDup_app_l {A} (a b : list A) : NoDup (a ++ b) -> NoDup a.
Proof.
  induction a as [|x a IH]; simpl; intros H; [constructor|].
  inversion_clear H as [|? ? H1 H2]. constructor; auto.
  intros Hx. apply H1. apply in_or_app; auto.
Qed.

Lemma NoDup_app_r {A} (a b : list A) : NoDup (a ++ b) -> NoDup b.
Proof. induction a as [|x a IH]; simpl; intros H; auto. inversion_clear H; auto. Qed.

Lemma NoDup_app_disj {A} (a b : list A) : NoDup (a ++ b) -> forall x, In x a -> ~ In x b.
Proof.
  induction a as [|y a IH]; simpl; intros H x Hx; [contradiction|].
  inversion_clear H as [|? ? H1 H2]. destruct Hx as [->|Hx]; auto.
  intros Hb. apply H1. apply in_or_app; auto.
Qed.

Lemma NoDup_app_intro {A} (a b : list A) :
  NoDup a -> NoDup b -> (forall x, In x a -> ~ In x b) -> NoDup (a ++ b).
Proof.
  induction a as [|y a IH]; simpl; intros Ha Hb H; auto.
  inversion_clear Ha as [|? ? H1 H2]. constructor.
  - rewrite in_app_iff. intros [K|K]; [auto|]. eapply H; eauto.
  - apply IH; auto.
Qed.

Lemma NoDup_snoc {A} (l : list A) x : NoDup l -> ~ In x l -> NoDup (l ++ [x]).
Proof.
  intros N H. apply NoDup_app_intro; [exact N| |].
  - constructor; [easy|constructor].
  - intros y Hy [<-|[]]. auto.
Qed.
