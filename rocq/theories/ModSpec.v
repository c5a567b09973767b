(* ModSpec.v: what a Fortran source file documents: the texts of the statements that matter,
   the structure of modules, and the tables that go with it.  Independent of the scanner
   (only the records that describe variables and tables are shared). *)
From Verif Require Import PyStr LineSpec DeclModel DeclSpec DeclProps DeclMoreProps ModModel.
From Coq Require Import Permutation.
Open Scope nat_scope.
Open Scope list_scope.

(* ---- texts ---- *)
(* a name ends where no further letter, digit or underscore follows *)
Definition stops (r : str) : Prop := match r with c :: _ => is_word c = false | [] => True end.
Definition comment_line (s : str) : Prop := exists w r, s = w ++ L "!" ++ r /\ blank w.
(* a subroutine statement: perhaps one prefix, the name, perhaps arguments in parentheses *)
Definition prefix (p : str) : Prop := p = [] \/ spells p (L "recursive") \/ spells p (L "pure") \/ spells p (L "elemental").
Definition padded (x t : str) : Prop := exists u v, t = u ++ x ++ v /\ blank u /\ blank v.
Definition arg_names (args : list str) (a : str) : Prop :=
  (args = [] /\ blank a) \/ (args <> [] /\ Forall identifier args /\ exists ts, a = join (L ",") ts /\ Forall2 padded args ts).
Definition arg_list (args : list str) (r : str) : Prop :=
  (args = [] /\ exists w c, r = w ++ c /\ blank w /\ comment c) \/
  (exists w a z, r = w ++ L "(" ++ a ++ L ")" ++ z /\ blank w /\ arg_names args a).
Definition routine (n : str) (args : list str) (s : str) : Prop :=
  exists w0 p w1 k w2 r, s = w0 ++ p ++ w1 ++ k ++ w2 ++ n ++ r /\
    blank w0 /\ prefix p /\ blank w1 /\ spells k (L "subroutine") /\ blank w2 /\ w2 <> [] /\ identifier n /\ arg_list args r.
(* a statement that looks like the start of a subroutine *)
Definition opens_routine (s : str) : Prop :=
  exists w0 p w1 k w2 c r, s = w0 ++ p ++ w1 ++ k ++ w2 ++ c :: r /\
    blank w0 /\ prefix p /\ blank w1 /\ spells k (L "subroutine") /\ blank w2 /\ is_alpha c = true.
(* end and a word *)
Definition end_of (word s : str) : Prop :=
  exists w0 e w1 t r, s = w0 ++ e ++ w1 ++ t ++ r /\ blank w0 /\ spells e (L "end") /\ blank w1 /\ spells t word.
Definition end_module (n s : str) : Prop :=
  exists w0 e w1 t w2 r, s = w0 ++ e ++ w1 ++ t ++ w2 ++ n ++ r /\
    blank w0 /\ spells e (L "end") /\ blank w1 /\ spells t (L "module") /\ blank w2 /\ w2 <> [] /\ identifier n /\ stops r.
(* a module statement *)
Definition module_stmt (n s : str) : Prop :=
  exists w0 t w1 r, s = w0 ++ t ++ w1 ++ n ++ r /\ blank w0 /\ spells t (L "module") /\ blank w1 /\ w1 <> [] /\ identifier n /\ stops r.
(* the line that announces the documentation of n *)
Definition documents (n s : str) : Prop :=
  exists w0 m w1 sec w2 a r, s = w0 ++ L "!" ++ m ++ w1 ++ sec ++ w2 ++ a ++ n ++ r /\
    blank w0 /\ (m = L "!" \/ m = L ">") /\ blank w1 /\ (sec = [] \/ spells sec (L "\section")) /\ blank w2 /\
    spells a (L "arg_table_") /\ identifier n /\ stops r.
Definition mentions_intent (s : str) : Prop :=
  exists a w i v r, s = a ++ L "," ++ w ++ i ++ v ++ L "(" ++ r /\ blank w /\ spells i (L "intent") /\ blank v.
(* two names are the same in Fortran *)
Definition same (a b : str) : Prop := lower a = lower b.
Definition distinct (vs : list dvar) : Prop := NoDup (map (fun v => lower (dv_name v)) vs).

(* lines that neither document anything nor end the module *)
Definition inside (s : str) : Prop := (forall n, ~ documents n s) /\ ~ end_of (L "module") s.

(* ---- routines ---- *)
(* the declarations of dummy arguments among the lines of a routine *)
Definition silent (s : str) : Prop :=
  inside s /\ ~ blank s /\ ~ opens_routine s /\ ~ end_of (L "subroutine") s /\ ~ begins (L "contains") s /\ (comment_line s \/ ~ mentions_intent s).
Inductive arguments : list str -> list dvar -> Prop :=
| a_nil : arguments [] []
| a_silent s ls vs : silent s -> arguments ls vs -> arguments (s :: ls) vs
| a_decl s ls h T K ddt al el vs vs' : head h T K ddt -> declaration h al el s -> (exists a, In a al /\ named "intent" a = true) ->
    Forall2 (says T K ddt al (option_map (fun x => lower (strip x)) (last_arg "intent" al))) el vs ->
    arguments ls vs' -> arguments (s :: ls) (vs ++ vs').
(* perhaps internal procedures: functions, and at most one subroutine *)
Definition internal (ls : list str) : Prop :=
  ls = [] \/
  (exists c l, ls = c :: l /\ begins (L "contains") c /\ Forall (fun s => inside s /\ ~ end_of (L "subroutine") s) l) \/
  (exists c l e l', ls = c :: l ++ e :: l' /\ begins (L "contains") c /\ Forall (fun s => inside s /\ ~ end_of (L "subroutine") s) l /\
     end_of (L "subroutine") e /\
     Forall (fun s => inside s /\ ~ end_of (L "subroutine") s /\ ~ opens_routine s /\ ~ begins (L "contains") s) l').
(* the table of a routine with these arguments and these declarations: the arguments in the
   order of the subroutine statement, each with its declaration *)
Definition scheme_table (m n : str) (args : list str) (vs : list dvar) (t : table) : Prop :=
  t_name t = n /\ t_kind t = "scheme"%string /\ t_module t = m /\
  Permutation (t_vars t) vs /\ map (fun v => lower (dv_name v)) (t_vars t) = map lower args.

(* ---- the part of a module after contains: tables, other routines ---- *)
Definition between (s : str) : Prop := inside s /\ ~ opens_routine s /\ ~ begins (L "contains") s.
(* a documented routine: the announcement, at least one more line, the routine *)
Definition documented (n : str) (args : list str) (vs : list dvar) (ls : list str) : Prop :=
  exists t d g0 g s b i e, ls = d :: g0 :: g ++ s :: b ++ i ++ [e] /\
    documents t d /\ inside g0 /\ ~ begins (L "contains") g0 /\ Forall between g /\ routine n args s /\ same n t /\
    arguments b vs /\ internal i /\ end_of (L "subroutine") e.
Definition undocumented (n : str) (ls : list str) : Prop :=
  exists args s b i e, ls = s :: b ++ i ++ [e] /\ routine n args s /\
    Forall (fun s => between s /\ ~ end_of (L "subroutine") s) b /\ internal i /\ end_of (L "subroutine") e.
Inductive procedures (m : str) : list str -> list table -> list str -> Prop :=
| r_nil : procedures m [] [] []
| r_line s ls ts us : between s -> procedures m ls ts us -> procedures m (s :: ls) ts us
| r_doc n args vs b t ls ts us : documented n args vs b -> NoDup (map lower args) -> scheme_table m n args vs t ->
    procedures m ls ts us -> procedures m (b ++ ls) (t :: ts) us
| r_undoc n b ls ts us : undocumented n b -> procedures m ls ts us -> procedures m (b ++ ls) ts (n :: us).

(* ---- the part of a module before contains: types and module variables ---- *)
Definition no_declaration (s : str) : Prop :=
  (forall w, In w type_words -> ~ begins w s) /\ ~ begins_paren (L "type") s /\ ~ begins_paren (L "class") s.
(* data declarations and the variables they declare; the other lines have property P *)
Inductive data (P : str -> Prop) : list str -> list dvar -> Prop :=
| d_nil : data P [] []
| d_decl s ls h T K ddt al el vs vs' : head h T K ddt -> declaration h al el s -> (forall a, In a al -> named "intent" a = false) ->
    Forall2 (says T K ddt al None) el vs -> data P ls vs' -> data P (s :: ls) (vs ++ vs')
| d_other s ls vs : P s -> ~ blank s -> comment_line s \/ no_declaration s -> data P ls vs -> data P (s :: ls) vs.
Definition definition_line (n s : str) : Prop :=
  (exists al ps, type_definition n al ps s) \/ (exists ps, short_definition n ps s).
(* a type definition with its components, and perhaps type-bound procedures *)
Definition type_block (n : str) (vs : list dvar) (ls : list str) : Prop :=
  exists d b c e, ls = d :: b ++ c ++ [e] /\ definition_line n d /\
    data (fun s => ~ end_of (L "type") s /\ ~ begins (L "contains") s) b vs /\ distinct vs /\
    (c = [] \/ exists k l, c = k :: l /\ begins (L "contains") k /\ Forall (fun s => ~ end_of (L "type") s) l) /\
    end_of (L "type") e.
(* no definition of a type: another statement, or a declaration type(...) *)
Definition no_type (s : str) : Prop :=
  ~ begins (L "type") s \/ exists w0 t w a n r, s = w0 ++ t ++ w ++ L "(" ++ a ++ n ++ r /\ blank w0 /\ spells t (L "type") /\ blank w /\ blank a /\ identifier n.
Definition plain_line (s : str) : Prop := inside s /\ no_type s /\ ~ begins (L "contains") s.
(* before the first announcement: nothing is collected *)
Inductive opening : list str -> Prop :=
| o_nil : opening []
| o_line s ls : plain_line s -> opening ls -> opening (s :: ls)
| o_type n vs b ls : type_block n vs b -> opening ls -> opening (b ++ ls).
(* from the first announcement on; [a] is the name announced last and not yet defined: the
   tables of types, and the variables of the module *)
Inductive preface (m : str) : option str -> list str -> list table -> list dvar -> Prop :=
| p_nil a : preface m a [] [] []
| p_announce a n s ls ts vs : documents n s -> preface m (Some n) ls ts vs -> preface m a (s :: ls) ts vs
| p_type t n tv b ls ts vs : same n t -> type_block n tv b -> preface m None ls ts vs -> preface m (Some t) (b ++ ls) (mkT n "ddt" m tv :: ts) vs
| p_other_type a n tv b ls ts vs : (forall t, a = Some t -> ~ same n t) -> type_block n tv b -> preface m a ls ts vs -> preface m a (b ++ ls) ts vs
| p_skip a s ls ts vs : (forall t, a = Some t -> ~ same t m) -> plain_line s -> ~ blank s -> preface m a ls ts vs -> preface m a (s :: ls) ts vs
| p_quiet a s ls ts vs : plain_line s -> ~ blank s -> comment_line s \/ no_declaration s -> preface m a ls ts vs -> preface m a (s :: ls) ts vs
| p_decl t s ls ts vs vs' h T K ddt al el : same t m -> head h T K ddt -> declaration h al el s -> (forall a, In a al -> named "intent" a = false) ->
    Forall2 (says T K ddt al None) el vs -> preface m (Some t) ls ts vs' -> preface m (Some t) (s :: ls) ts (vs ++ vs').
Inductive specification (m : str) : list str -> list table -> Prop :=
| s_none ls : opening ls -> specification m ls []
| s_some o n s ls ts vs : opening o -> documents n s -> preface m (Some n) ls ts vs -> distinct vs ->
    specification m (o ++ s :: ls) (ts ++ [mkT m "module" m vs]).

(* ---- modules and files, one statement on each line ---- *)
Definition a_module (ls : list str) (ts : list table) (us : list str) : Prop :=
  exists m s sp c b e t1 t2, ls = s :: sp ++ c :: b ++ [e] /\ module_stmt m s /\ specification m sp t1 /\
    begins (L "contains") c /\ procedures m b t2 us /\ end_module m e /\ ts = t1 ++ t2.
Definition elsewhere (ls : list str) : Prop := Forall (fun s => forall n, ~ module_stmt n s) ls.
