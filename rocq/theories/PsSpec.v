(* PsSpec.v: the statements, modules and scheme subroutines of a Fortran file. *)
From Coq Require Import List Ascii String ZArith Bool.
From Verif Require Import PyStr ArModel NmModel NmSpec.
Import ListNotations.
Open Scope nat_scope. Open Scope list_scope.

(* lines of the file and statements *)
Definition blanked (l t : str) : Prop := Forall2 (fun c d => (c = "&"%char /\ d = " "%char) \/ (c <> "&"%char /\ d = c)) l t.
Definition blank (l : str) : Prop := strip l = [] \/ strip l = L "&".
Definition continued (l : str) : Prop := exists t, t <> [] /\ strip l = t ++ L "&".
Inductive statement : list str -> str -> Prop :=
| St_last l t : ~ blank l -> ~ continued l -> blanked l t -> statement [l] t
| St_blank l ls t : blank l -> statement ls t -> statement (l :: ls) t
| St_cont l u ls t : continued l -> blanked l u -> statement ls t -> statement (l :: ls) (u ++ t).
Inductive logical : list str -> list str -> Prop :=
| Lg_rest ls : Forall (fun l => blank l \/ continued l) ls -> logical ls []
| Lg_next a t b out : statement a t -> logical b out -> logical (a ++ b) (t :: out).

(* the text of a line without a comment at its end, and its words *)
Inductive uncommented : str -> str -> Prop :=
| U_comment t : uncommented ("!"%char :: t) ("!"%char :: t)
| U_none l : ~ In "!"%char l -> uncommented l l
| U_cut a b : a <> [] -> ~ In "!"%char a -> uncommented (a ++ "!"%char :: b) a.
Definition says (l : str) (ws : list str) : Prop := exists t, uncommented l t /\ words_in t ws.
Definition opens_module (l m : str) : Prop := exists w0 more, says l (w0 :: m :: more) /\ lower w0 = L "module" /\ lower m <> L "procedure".
Definition closes_module (l m : str) : Prop := exists w0 w1 more, says l (w0 :: w1 :: more) /\ lower w0 = L "end" /\ lower w1 = L "module" /\ (more = [] \/ exists r, more = m :: r).
Definition opens_sub (l n : str) : Prop := exists w0 r more, says l (w0 :: (n ++ r) :: more) /\ lower w0 = L "subroutine" /\ ~ In "("%char n /\ (r = [] \/ exists q, r = "("%char :: q).
Definition closes_sub (l n : str) : Prop := exists w0 w1 more, says l (w0 :: w1 :: more) /\ lower w0 = L "end" /\ lower w1 = L "subroutine" /\ (more = [] \/ exists r, more = n :: r).
(* the subroutine n of the scheme p for one of the phases *)
Definition phase_sub (p n : str) : Prop :=
  (exists st, In st [L "timestep_init"; L "timestep_finalize"; L "run"] /\ n = p ++ L "_" ++ st) \/
  (exists st, In st [L "init"; L "finalize"] /\ n = p ++ L "_" ++ st /\ forall q, p <> q ++ L "_timestep").
(* m is the module whose lines are k..j: later ends are those of later modules *)
Definition module_lines (lines : list str) (m : str) (k j : nat) : Prop :=
  k < j /\ (exists l, nth_error lines k = Some l /\ opens_module l m) /\ (exists l, nth_error lines j = Some l /\ closes_module l m) /\
  forall i l, j < i -> nth_error lines i = Some l -> closes_module l m -> exists h x o, k < h < i /\ nth_error lines h = Some x /\ opens_module x o.
Definition recorded (args : list (str * list (str * list str))) (m n : str) : Prop := exists subs, In (m, subs) args /\ In n (map fst subs).
(* a header of the table of subroutine n *)
Definition occurs (x s : str) : Prop := exists a b, s = a ++ x ++ b.
Definition header_line (n l : str) : Prop := exists w0 w1 w2 more, words_in l (w0 :: w1 :: w2 :: more) /\
  (w0 = L "!!" \/ w0 = L "!>") /\ occurs (L "\section") w1 /\ occurs (L "arg_table_" ++ n) w2.
Definition mentioned (n l : str) : Prop := exists ws w, words_in l ws /\ In w ws /\ occurs (L "arg_table_" ++ n) w.
(* line k has the property *)
Definition line_is (all : list str) (k : nat) (P : str -> Prop) : Prop := exists l, nth_error all k = Some l /\ P l.
(* the arguments every subroutine with arguments must have *)
Definition mandatory_in (a : list str) : Prop := a = [] \/ (In (L "ccpp_error_message") a /\ In (L "ccpp_error_code") a).
