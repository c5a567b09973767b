(* PyNum.v: decimal representation of natural numbers, Python's str(n). *)
From Coq Require Import Decimal DecimalNat.
From Verif Require Import PyStr.
Open Scope nat_scope.
Open Scope list_scope.

Fixpoint uint_str (u : Decimal.uint) : str :=
  match u with
  | Nil => []
  | D0 u => "0"%char :: uint_str u | D1 u => "1"%char :: uint_str u | D2 u => "2"%char :: uint_str u
  | D3 u => "3"%char :: uint_str u | D4 u => "4"%char :: uint_str u | D5 u => "5"%char :: uint_str u
  | D6 u => "6"%char :: uint_str u | D7 u => "7"%char :: uint_str u | D8 u => "8"%char :: uint_str u
  | D9 u => "9"%char :: uint_str u
  end.
Definition str_of_nat (n : nat) : str := uint_str (Nat.to_uint n).

Lemma uint_str_inj u v : uint_str u = uint_str v -> u = v.
Proof. revert v. induction u; destruct v; cbn; intros H; try discriminate; auto; injection H as H; f_equal; auto. Qed.
Lemma str_of_nat_inj m n : str_of_nat m = str_of_nat n -> m = n.
Proof. intros H. apply uint_str_inj in H. now apply Unsigned.to_uint_inj. Qed.
Lemma uint_str_digits u : forallb is_digit (uint_str u) = true.
Proof. induction u; cbn [uint_str forallb]; auto; rewrite IHu; reflexivity. Qed.
Lemma str_of_nat_digits n : forallb is_digit (str_of_nat n) = true.
Proof. apply uint_str_digits. Qed.
Lemma uint_str_nil u : uint_str u = [] -> u = Nil.
Proof. destruct u; cbn; intros; congruence. Qed.
Lemma str_of_nat_nonempty n : str_of_nat n <> [].
Proof.
  intros H. apply uint_str_nil in H. destruct n as [|n]; [discriminate|].
  pose proof (Unsigned.of_to (S n)) as E. rewrite H in E. discriminate.
Qed.
Lemma digit_lower c : is_digit c = true -> lower_c c = c.
Proof.
  unfold lower_c, is_digit, is_upper, in_range. intros H. apply andb_true_iff in H as [H1 H2].
  apply Nat.leb_le in H1, H2. replace (65 <=? code c) with false; [reflexivity|]. symmetry. apply Nat.leb_gt. lia.
Qed.
Lemma str_of_nat_lower n : lower (str_of_nat n) = str_of_nat n.
Proof.
  unfold lower. pose proof (str_of_nat_digits n) as H. induction (str_of_nat n) as [|c l IH]; auto.
  cbn [forallb map] in *. apply andb_true_iff in H as [H1 H2]. rewrite digit_lower, IH; auto.
Qed.
