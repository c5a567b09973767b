(* What a condition is, as a list of tokens. *)
From Coq Require Import List Ascii String ZArith Bool.
From Verif Require Import PyStr.
Import ListNotations.
Open Scope nat_scope. Open Scope list_scope.

(* the operators, constants and separators of a condition *)
Definition operators : list str :=
  map L [" "; "("; ")"; "=="; "/="; "<="; ">="; "<"; ">"; ".eqv."; ".neqv.";
         ".true."; ".false."; ".lt."; ".le."; ".eq."; ".ge."; ".gt."; ".ne.";
         ".not."; ".and."; ".or."; ".xor."]%string.
Inductive token := TName (n : str) | TInt (d : str) | TOp (w : str).
Definition text1 (t : token) : str := match t with TName n => n | TInt d => d | TOp w => w end.
Definition text (ts : list token) : str := concat (map text1 ts).

(* a name starts with a letter and is made of letters, digits and underscores; an
   integer is a string of digits *)
Definition good (t : token) : Prop :=
  match t with
  | TName n => exists c r, n = c :: r /\ is_alpha c = true /\ Forall (fun d => is_word d = true) r
  | TInt d => d <> [] /\ Forall (fun c => is_digit c = true) d
  | TOp w => In w operators
  end.
Definition wordy (t : token) : Prop := match t with TOp _ => False | _ => True end.
(* two tokens that may stand next to each other in a text: not two words, and not
   [<] or [>] followed by [==], which reads [<=] [=] *)
Definition apart (a b : token) : Prop :=
  ~ (wordy a /\ wordy b) /\
  ~ ((a = TOp (L "<") \/ a = TOp (L ">")) /\ b = TOp (L "==")).
Inductive written : list token -> Prop :=
| written_nil : written []
| written_one t : good t -> written [t]
| written_cons a b r : good a -> apart a b -> written (b :: r) -> written (a :: b :: r).

(* [image naming ts out vs]: [out] is the condition with every name replaced by the
   local name of the variable it denotes, [vs] are these variables in order *)
Inductive image {V} (denotes : str -> V -> Prop) (local : V -> str) : list token -> str -> list V -> Prop :=
| image_nil : image denotes local [] [] []
| image_name n v r o vs : denotes (lower n) v -> image denotes local r o vs ->
    image denotes local (TName n :: r) (local v ++ o) (v :: vs)
| image_int d r o vs : image denotes local r o vs -> image denotes local (TInt d :: r) (d ++ o) vs
| image_op w r o vs : image denotes local r o vs -> image denotes local (TOp w :: r) (w ++ o) vs.

(* the first dictionary that knows a name decides *)
Inductive denoted {V} : list (str -> option V) -> str -> V -> Prop :=
| denoted_here (d : str -> option V) r n v : d n = Some v -> denoted (d :: r) n v
| denoted_later (d : str -> option V) r n v : d n = None -> denoted r n v -> denoted (d :: r) n v.
Definition unknown {V} (ds : list (str -> option V)) (n : str) : Prop := Forall (fun d => d n = None) ds.

(* a character no token of a condition can start with *)
Definition foreign (c : ascii) : Prop :=
  is_word c = false /\ ~ In c (L "' ()=/<>").

(* if-then statements of Fortran: the condition stands in one pair of parentheses.
   [closed_at_end 0 r]: the parenthesis opened before [r] is closed by the last
   character of [r], and not before. *)
Fixpoint closed_at_end (d : nat) (s : str) : Prop :=
  match s with
  | [] => False
  | c :: r =>
      if Ascii.eqb c "("%char then closed_at_end (S d) r
      else if Ascii.eqb c ")"%char then
        match d with
        | O => r = []
        | S d' => closed_at_end d' r
        end
      else closed_at_end d r
  end.
Definition parenthesised (s : str) : Prop := exists r, s = "("%char :: r /\ closed_at_end 0 r.
Definition legal_if (line : str) : Prop := exists e, line = L "if " ++ e ++ L " then" /\ parenthesised (strip e).

(* ---------------------------------------------------------------- prebuild *)
(* [wanted define ... run args n]: a group cap needs the host variable [n] to call a
   scheme with the arguments [args] in the run stage or another one.  [define] gives
   the host variables, with their local name, dimensions and condition. *)
Section Wanted.
Variable V : Type.
Variable define : str -> option V.
Variable local : V -> str.
Variable dims : V -> list str.
Variable active : V -> str.
Inductive wanted (run : bool) (args : list str) : str -> Prop :=
(* the horizontal range of the call *)
| wanted_extent n : define (L "horizontal_loop_extent") <> None ->
    In n [L "ccpp_constant_one"; L "horizontal_loop_extent"] -> wanted run args n
| wanted_chunk n : define (L "horizontal_loop_extent") = None -> run = true ->
    define (L "horizontal_loop_begin") <> None -> define (L "horizontal_loop_end") <> None ->
    define (L "ccpp_chunk_extent") <> None ->
    In n [L "horizontal_loop_begin"; L "horizontal_loop_end"; L "ccpp_chunk_extent"] -> wanted run args n
(* the bounds of a dimension of an argument, unless they are numbers *)
| wanted_dim a v d b : In a args -> define a = Some v -> In d (dims v) -> In b (split_on ":"%char d) ->
    py_int (lower b) = None -> wanted run args (lower b)
(* an argument that is stored in blocks, in a stage that works on all of them *)
| wanted_block a v p q n : run = false -> In a args -> define a = Some v -> local v = p ++ L "cdata%blk_no" ++ q ->
    In n [L "ccpp_block_count"; L "horizontal_dimension"] -> wanted run args n
(* the names in the condition of an argument *)
| wanted_condition a v ts n : In a args -> define a = Some v -> active v <> L "T" -> active v <> L "F" ->
    written ts -> active v = text ts -> In (TName n) ts -> wanted run args (lower n).
(* a condition that is T, F, or a text of tokens *)
Definition readable (v : V) : Prop := active v = L "T" \/ active v = L "F" \/ exists ts, written ts /\ active v = text ts.
(* [c] is the Fortran condition of a host variable *)
Definition condition_of (v : V) (c : str) : Prop :=
  (active v = L "T" -> c = L ".true.") /\ (active v = L "F" -> c = L ".false.") /\
  (forall ts, active v <> L "T" -> active v <> L "F" -> written ts -> active v = text ts ->
     exists vs, image (fun n w => define n = Some w) local ts c vs).
End Wanted.
