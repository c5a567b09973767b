(* ParenSpec.v: balanced parentheses outside character context. *)
From Verif Require Import PyStr.
Open Scope nat_scope.
Open Scope list_scope.

Definition is_quote (c : ascii) : bool := Ascii.eqb c """" || Ascii.eqb c "'".
(* the text with quotes and everything in character context blanked out *)
Fixpoint visible (q : option ascii) (s : str) : str :=
  match s with
  | [] => []
  | c :: t =>
      match q with
      | None => if is_quote c then " "%char :: visible (Some c) t else c :: visible None t
      | Some d => " "%char :: visible (if Ascii.eqb d c then None else q) t
      end
  end.
Definition is_paren (c : ascii) : bool := Ascii.eqb c "(" || Ascii.eqb c ")".
(* opening minus closing parentheses *)
Fixpoint height (s : str) : Z :=
  match s with
  | [] => 0
  | c :: t => (if Ascii.eqb c "(" then 1 else if Ascii.eqb c ")" then -1 else 0) + height t
  end%Z.
(* position b holds the first parenthesis, and it is c *)
Definition first_paren (v : str) (b : nat) (c : ascii) : Prop :=
  nth_error v b = Some c /\ is_paren c = true /\ forall k d, k < b -> nth_error v k = Some d -> is_paren d = false.
(* the parenthesis at b is closed at e *)
Definition closes (v : str) (b e : nat) : Prop :=
  b < e /\ e < length v /\ height (firstn (S e - b) (skipn b v)) = 0%Z /\
  forall k, b <= k -> k < e -> (0 < height (firstn (S k - b) (skipn b v)))%Z.
