(* PassSpec.v: what the statements about passed arguments say in their own terms. *)
From Verif Require Import PyStr PassModel.
From Coq Require Import Lia.
Open Scope nat_scope.
Open Scope list_scope.

(* ---- argument lists ---- *)
(* characters taken by some arguments, each followed by a comma *)
Definition width (args : list str) : nat := list_sum (map (fun a => length a + 1) args).
(* a Fortran continuation: blank, ampersand, end of line, 18 blanks *)
Definition continuation : str := L "," ++ L " &" ++ [nl] ++ List.repeat " "%char 18.
(* the arguments of one chunk on one line, chunks separated by continuations *)
Definition laid_out (chunks : list (list str)) : str := join continuation (map (join (L ",")) chunks).
(* a line is broken as soon as, and only when, more than 70 characters are on it *)
Fixpoint filled (chunks : list (list str)) : Prop :=
  match chunks with
  | [] => True
  | c :: t => width (removelast c) <= 70 /\ (t <> [] -> 70 < width c) /\ filled t
  end.
(* "name=name" *)
Definition keyword_arg (a : str) : str := a ++ L "=" ++ a.

(* ---- blocks ---- *)
(* the contiguous array cut into pieces of the given sizes *)
Fixpoint cut {A} (sizes : list nat) (l : list A) : list (list A) :=
  match sizes with [] => [] | n :: t => firstn n l :: cut t (skipn n l) end.
(* what one call should do to the blocks: an input is left alone; otherwise the scheme gets
   the contiguous data in its own units and the result goes back in the host's *)
Definition ideal_call {A} (cin cout : A -> A) (c : bcall A) (blocks : list (list A)) : list (list A) :=
  match b_intent c with
  | IIn => blocks
  | it =>
      let given := match it with IOut => List.concat blocks | _ => map (if b_differ c then cin else fun x => x) (List.concat blocks) end in
      cut (map (@length A) blocks) (map (if b_differ c then cout else fun x => x) (b_scheme c given))
  end.

(* ---- intents ---- *)
(* a use that only reads; a use that only writes *)
Definition reads_only (u : use) : Prop := u_index u = true \/ u_intent u = IIn.
Definition writes_only (u : use) : Prop := u_index u = false /\ u_intent u = IOut.
(* an index is recorded only when the argument is first seen, L1276-1317 *)
Definition well_formed (us : list use) : Prop := Forall (fun u => u_known u = true -> u_index u = false) us.
