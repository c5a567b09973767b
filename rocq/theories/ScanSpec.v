(* ScanSpec.v: what continuation lines mean. *)
From Verif Require Import PyStr LineSpec.
Open Scope nat_scope.
Open Scope list_scope.

(* the character context (LineSpec.ctx) just before position p *)
Definition ctx_before (x : ctx) (s : str) (p : nat) : ctx := fold_left ctx_step (firstn p s) x.
Definition in_quote (x : ctx) : Prop := exists q, x = Quote q.
Definition blank (s : str) : Prop := forall c, In c s -> is_space c = true.
(* only blanks up to the end or to a comment *)
Definition ends_here (s : str) : Prop := exists b, blank b /\ (s = b \/ exists r, s = b ++ "!"%char :: r).
(* [s] read from context [x]: the first comment character cm, the continuation mark co,
   the context x' at the end *)
Record scanned (x : ctx) (s : str) (co cm : option nat) (x' : ctx) : Prop := {
  sc_cm : forall p, cm = Some p <-> nth_error s p = Some "!"%char /\ ctx_before x s p = Code;
  sc_co : forall p, co = Some p <-> nth_error s p = Some "&"%char /\
            (ctx_before x s p = Code \/ (in_quote (ctx_before x s p) /\ S p = length s));
  sc_ok : forall p, nth_error s p = Some "&"%char -> ctx_before x s p = Code -> ends_here (skipn (S p) s);
  sc_x : x' = match ctx_before x s (length s) with Comment => Code | y => y end }.
(* the two flags of a context outside comments *)
Definition flags (s d : bool) (x : ctx) : Prop :=
  (s = false /\ d = false /\ x = Code) \/ (s = true /\ d = false /\ x = Quote "'") \/ (s = false /\ d = true /\ x = Quote """").
(* a line that begins with a continuation mark *)
Definition opens (line : str) (k : nat) : Prop := exists b r, line = b ++ "&"%char :: r /\ blank b /\ k = length b.
Definition after_in (ci : option nat) : nat := match ci with Some k => S k | None => 0 end.
(* the scan of a whole line; [inc]: the line before was continued *)
Definition line_scan (inc : bool) (x : ctx) (line : str) (ci co cm : option nat) (x' : ctx) : Prop :=
  ~ blank line /\ (forall k, ci = Some k <-> opens line k) /\ (ci <> None -> inc = true) /\ (in_quote x -> inc = true) /\
  (exists co1 cm1, scanned x (skipn (after_in ci) (rstrip line)) co1 cm1 x' /\
     co = option_map (Nat.add (after_in ci)) co1 /\ cm = option_map (Nat.add (after_in ci)) cm1) /\
  (in_quote x' -> co <> None).

(* ---- merging ---- *)
Definition skipped (l : str) : Prop := blank l \/ exists b r, l = b ++ "!"%char :: r /\ blank b.
(* the lines that follow a continued line whose context is x: their text, and what is left
   of the lines *)
Inductive follow : ctx -> list str -> str -> list str -> Prop :=
| FSkip x l b t o : skipped l -> follow x b t o -> follow x (l :: b) t (l :: o)
| FMore x l b ci k cm x' t o : ~ skipped l -> line_scan true x l ci (Some k) cm x' -> follow x' b t o ->
    follow x (l :: b) (skipn (after_in ci) (firstn k l) ++ t) ([] :: o)
| FLast x l ci cm : ~ skipped l -> line_scan true x l ci None cm Code -> follow x [l] (skipn (after_in ci) l) [[]].
(* the same when the file ends inside the statement *)
Inductive unfinished : ctx -> list str -> str -> list str -> Prop :=
| UEnd x : unfinished x [] [] []
| USkip x l b t o : skipped l -> unfinished x b t o -> unfinished x (l :: b) t (l :: o)
| UMore x l b ci k cm x' t o : ~ skipped l -> line_scan true x l ci (Some k) cm x' -> unfinished x' b t o ->
    unfinished x (l :: b) (skipn (after_in ci) (firstn k l) ++ t) ([] :: o).
(* the text of the first line of a continued statement *)
Definition head_text (l : str) (k : nat) (x : ctx) (h : str) : Prop :=
  (x = Code /\ h = rstrip (firstn k l)) \/ (in_quote x /\ h = firstn k l).
Inductive merged : list str -> list str -> Prop :=
| MNil : merged [] []
| MSkip l t o : skipped l -> merged t o -> merged (l :: t) (l :: o)
| MPlain l cm t o : ~ skipped l -> line_scan false Code l None None cm Code -> merged t o -> merged (l :: t) (l :: o)
| MStmt l k cm x h b s bo t o : ~ skipped l -> line_scan false Code l None (Some k) cm x -> head_text l k x h -> follow x b s bo -> merged t o ->
    merged (l :: b ++ t) ((h ++ s) :: bo ++ o)
| MOpen l k cm x h b s bo : ~ skipped l -> line_scan false Code l None (Some k) cm x -> head_text l k x h -> unfinished x b s bo ->
    (exists y, In y b /\ ~ skipped y) -> merged (l :: b) ((h ++ s) :: bo)
| MAlone l k cm x b : ~ skipped l -> line_scan false Code l None (Some k) cm x -> (forall y, In y b -> skipped y) -> merged (l :: b) (l :: b).

(* ---- fixed form ---- *)
Record fscanned (x : ctx) (s : str) (cm : option nat) (x' : ctx) : Prop := {
  fs_cm : forall p, cm = Some p <-> nth_error s p = Some "!"%char /\ ctx_before x s p = Code;
  fs_x : x' = match ctx_before x s (length s) with Comment => Code | y => y end }.
(* five blanks, then a character that is neither a blank nor a zero *)
Definition is_cont (l : str) : Prop := exists c r, l = L "     " ++ c :: r /\ c <> "0"%char /\ c <> " "%char.
(* a comment line: C or an asterisk in the first column, or an exclamation mark in one of
   the first five after spaces; k is its column *)
Definition is_fcomment (l : str) (k : nat) : Prop :=
  (k = 0 /\ exists c r, l = c :: r /\ (c = "C"%char \/ c = "c"%char \/ c = "*"%char)) \/
  (k <= 4 /\ exists r, l = List.repeat " "%char k ++ "!"%char :: r).
(* the lines left alone *)
Definition fskipped (l : str) : Prop := skipped l \/ exists k, is_fcomment l k.
(* columns 7 to 72 *)
Definition columns (l : str) : str := skipn 6 (firstn 72 l).
Definition fixed_text (l : str) (conts : list str) : str := fold_left (fun t c => rstrip (t ++ columns c)) conts (firstn 72 l).
Definition no_comment (l : str) : Prop := forall p, nth_error (rstrip l) p = Some "!"%char -> ctx_before Code (rstrip l) p <> Code.
(* a statement: its first line, then continuation lines and lines left alone, the former marked *)
Definition fstatement := (str * list (bool * str))%type.
Definition wf_statement (b : fstatement) : Prop :=
  ~ fskipped (fst b) /\ ~ is_cont (fst b) /\ no_comment (fst b) /\
  forall mk c, In (mk, c) (snd b) -> if mk : bool then ~ fskipped c /\ is_cont c else fskipped c.
Definition conts (b : fstatement) : list str := map snd (List.filter fst (snd b)).
Definition source (b : fstatement) : list str := fst b :: map snd (snd b).
(* what is left of its lines *)
Definition result (b : fstatement) : list str :=
  (match conts b with [] => fst b | cs => fixed_text (fst b) cs end) :: map (fun p => if fst p : bool then [] else snd p) (snd b).
