(* PyStr.v: Python text as lists of characters, and the few string methods the
   models use.  Nothing here models repository code; it models Python built-ins
   (str.strip, str.split, int(), regex character classes) restricted to
   ASCII text. *)
From Verif Require Export Base.

Definition str := list ascii.
(* string literals *)
Definition L (s : string) : str := list_ascii_of_string s.

Definition chr_eqb (a b : ascii) : bool := Ascii.eqb a b.
Fixpoint str_eqb (a b : str) : bool :=
  match a, b with
  | [], [] => true
  | x :: a', y :: b' => Ascii.eqb x y && str_eqb a' b'
  | _, _ => false
  end.

Lemma str_eqb_eq a b : str_eqb a b = true <-> a = b.
Proof.
  revert b; induction a as [|x a IH]; intros [|y b]; cbn [str_eqb]; split; intros H;
    try reflexivity; try discriminate.
  - apply andb_true_iff in H. destruct H as [H1 H2]. apply Ascii.eqb_eq in H1. apply IH in H2. now subst.
  - injection H as -> ->. apply andb_true_iff; split; [apply Ascii.eqb_refl|]. now apply IH.
Qed.
Lemma str_eqb_refl a : str_eqb a a = true. Proof. now apply str_eqb_eq. Qed.
Lemma str_eqb_neq a b : str_eqb a b = false <-> a <> b.
Proof.
  split.
  - intros H ->. rewrite str_eqb_refl in H. discriminate.
  - intros H. destruct (str_eqb a b) eqn:E; [|reflexivity]. apply str_eqb_eq in E. contradiction.
Qed.
Lemma str_eq_dec (a b : str) : {a = b} + {a <> b}.
Proof. apply (list_eq_dec ascii_dec). Qed.

Definition code (c : ascii) : nat := nat_of_ascii c.
Definition in_range (lo hi : nat) (c : ascii) : bool := Nat.leb lo (code c) && Nat.leb (code c) hi.
(* Python \s and str.isspace on ASCII: \t \n \v \f \r, \x1c-\x1f, blank *)
Definition is_space (c : ascii) : bool := in_range 9 13 c || in_range 28 32 c.
Definition is_digit (c : ascii) : bool := in_range 48 57 c.
Definition is_upper (c : ascii) : bool := in_range 65 90 c.
Definition is_lower (c : ascii) : bool := in_range 97 122 c.
Definition is_alpha (c : ascii) : bool := is_upper c || is_lower c.
(* regex class [A-Za-z0-9_] *)
Definition is_word (c : ascii) : bool := is_alpha c || is_digit c || Ascii.eqb c "_".
Definition nl : ascii := ascii_of_nat 10.

(* str.lower / str.upper on ASCII *)
Definition lower_c (c : ascii) : ascii := if is_upper c then ascii_of_nat (code c + 32) else c.
Definition upper_c (c : ascii) : ascii := if is_lower c then ascii_of_nat (code c - 32) else c.
Definition lower (s : str) : str := map lower_c s.
Definition upper (s : str) : str := map upper_c s.

Fixpoint dropwhile {A} (f : A -> bool) (l : list A) : list A :=
  match l with [] => [] | x :: t => if f x then dropwhile f t else l end.
Fixpoint takewhile {A} (f : A -> bool) (l : list A) : list A :=
  match l with [] => [] | x :: t => if f x then x :: takewhile f t else [] end.

(* str.lstrip, str.rstrip, str.strip *)
Definition lstrip (s : str) : str := dropwhile is_space s.
Definition rstrip (s : str) : str := rev (dropwhile is_space (rev s)).
Definition strip (s : str) : str := rstrip (lstrip s).

(* s.startswith(p), returning the remainder *)
Fixpoint after_prefix (p s : str) : option str :=
  match p, s with
  | [], _ => Some s
  | x :: p', y :: s' => if Ascii.eqb x y then after_prefix p' s' else None
  | _ :: _, [] => None
  end.
Definition startswith (p s : str) : bool :=
  match after_prefix p s with Some _ => true | None => false end.

Lemma after_prefix_app p s : after_prefix p (p ++ s) = Some s.
Proof. induction p as [|x p IH]; cbn [after_prefix app]; [reflexivity|]. now rewrite Ascii.eqb_refl. Qed.
Lemma after_prefix_some p s r : after_prefix p s = Some r <-> s = p ++ r.
Proof.
  split.
  - revert s; induction p as [|x p IH]; intros [|y s]; cbn [after_prefix app]; try congruence.
    destruct (Ascii.eqb x y) eqn:E; [|discriminate]. apply Ascii.eqb_eq in E. subst.
    intros H. now rewrite (IH _ H).
  - intros ->. apply after_prefix_app.
Qed.

Lemma dropwhile_app {A} (f : A -> bool) l : exists p, l = p ++ dropwhile f l /\ forallb f p = true.
Proof.
  induction l as [|x l (p & H1 & H2)]; [exists []; auto|]. cbn [dropwhile].
  destruct (f x) eqn:E; [|exists []; auto].
  exists (x :: p). cbn. rewrite E, <- H1. auto.
Qed.
Lemma dropwhile_hd {A} (f : A -> bool) l x t : dropwhile f l = x :: t -> f x = false.
Proof.
  induction l as [|y l IH]; cbn [dropwhile]; [discriminate|].
  destruct (f y) eqn:E; auto. intros H; injection H as -> ->. exact E.
Qed.
Lemma take_drop_while {A} (f : A -> bool) l : takewhile f l ++ dropwhile f l = l.
Proof. induction l as [|x l IH]; cbn; [reflexivity|]. destruct (f x); cbn; [now rewrite IH|reflexivity]. Qed.

(* str.split(sep) for a one character separator *)
Fixpoint split_on (sep : ascii) (s : str) : list str :=
  match s with
  | [] => [[]]
  | c :: t =>
      if Ascii.eqb c sep then [] :: split_on sep t
      else match split_on sep t with
           | h :: r => (c :: h) :: r
           | [] => [[c]]
           end
  end.
(* sep.join(parts) *)
Fixpoint join (sep : str) (l : list str) : str :=
  match l with
  | [] => []
  | [x] => x
  | x :: t => x ++ sep ++ join sep t
  end.

Lemma split_on_nonempty sep s : split_on sep s <> [].
Proof. destruct s as [|c t]; cbn; [discriminate|]. destruct (Ascii.eqb c sep); [discriminate|]. destruct (split_on sep t); discriminate. Qed.

Lemma join_split sep s : join [sep] (split_on sep s) = s.
Proof.
  induction s as [|c t IH]; cbn [split_on]; [reflexivity|].
  destruct (Ascii.eqb c sep) eqn:E.
  - apply Ascii.eqb_eq in E; subst c.
    destruct (split_on sep t) as [|h r] eqn:Es; [now apply split_on_nonempty in Es|].
    cbn [join app] in *. now rewrite IH.
  - destruct (split_on sep t) as [|h r] eqn:Es; [now apply split_on_nonempty in Es|].
    destruct r as [|h2 r]; cbn [join app] in *; now rewrite <- IH.
Qed.

Lemma split_on_no_sep sep s x : In x (split_on sep s) -> ~ In sep x.
Proof.
  revert x; induction s as [|c t IH]; cbn [split_on]; intros x Hx.
  - destruct Hx as [<-|[]]. easy.
  - destruct (Ascii.eqb c sep) eqn:E.
    + destruct Hx as [<-|Hx]; [easy|auto].
    + apply Ascii.eqb_neq in E.
      destruct (split_on sep t) as [|h r] eqn:Es; [now apply split_on_nonempty in Es|].
      destruct Hx as [<-|Hx].
      * intros [K|K]; [auto|]. now apply (IH h (or_introl eq_refl)).
      * apply IH. now right.
Qed.

(* Decimal integers: int(text) of Python (blanks around, optional sign, digits
   with single underscores between them); None stands for ValueError. *)
Fixpoint digits_val (acc : Z) (s : str) : option Z :=
  match s with
  | [] => Some acc
  | c :: t =>
      if is_digit c then digits_val (acc * 10 + Z.of_nat (code c - 48))%Z t
      else if Ascii.eqb c "_" then
        match t with
        | d :: _ => if is_digit d then digits_val acc t else None
        | [] => None
        end
      else None
  end.
Definition unsigned_val (s : str) : option Z :=
  match s with
  | c :: _ => if is_digit c then digits_val 0 s else None
  | [] => None
  end.
Definition py_int (s : str) : option Z :=
  match strip s with
  | c :: t => if Ascii.eqb c "-" then option_map Z.opp (unsigned_val t)
              else if Ascii.eqb c "+" then unsigned_val t
              else unsigned_val (c :: t)
  | [] => None
  end.

(* Outcomes of code that may raise *)
Inductive res (A : Type) : Type := Ok (a : A) | Raise (e : string).
Arguments Ok {A}. Arguments Raise {A}.
Definition bind {A B} (r : res A) (f : A -> res B) : res B :=
  match r with Ok a => f a | Raise e => Raise e end.
Notation "x <- e ;; f" := (bind e (fun x => f)) (at level 90, e at level 70, right associativity).

Lemma bind_ok {A B} (r : res A) (f : A -> res B) b :
  bind r f = Ok b <-> exists a, r = Ok a /\ f a = Ok b.
Proof.
  destruct r as [a|e]; cbn; split.
  - intros H; eauto.
  - intros (a' & H1 & H2). injection H1 as <-. exact H2.
  - discriminate.
  - intros (a' & H1 & H2). discriminate.
Qed.
