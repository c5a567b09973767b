(* EnvModel.v: scripts/framework_env.py, CCPPFrameworkEnv.__init__ (preprocessor
   definitions L88-135, kinds L149-175, final error L221-224), and
   scripts/parse_tools/xml_tools.py, find_schema_version and find_schema_file.
   Simplified: the other options are taken to be given; an error text is reduced to the
   class of the exception, and a format failure caused by braces inside an error text is
   not told apart from the exception being reported. *)
From Verif Require Import PyStr PyNum DictModel.
Open Scope nat_scope.
Open Scope list_scope.

(* the preproc_directives argument *)
Inductive preproc_arg := PNone | PList (l : list str) | PStr (s : str).
Definition has_comma (s : str) : bool := existsb (Ascii.eqb ",") s.
Definition nonempty (s : str) : bool := match s with [] => false | _ => true end.
(* L96-114 *)
Definition preproc_list (a : preproc_arg) : list str :=
  match a with
  | PList l => l
  | PNone => []
  | PStr s =>
      if negb (nonempty s) || str_eqb s (L "UNSET") then []
      else if has_comma s then map strip (split_on "," s)
      else map strip (List.filter nonempty (split_on " " s))
  end.
(* item.split('=', 1), at most one cut *)
Fixpoint split_first (c : ascii) (s : str) : str * option str :=
  match s with
  | [] => ([], None)
  | d :: t => if Ascii.eqb d c then ([], Some t) else let '(a, b) := split_first c t in (d :: a, b)
  end.
(* L118-133; len(tokens) is 1 or 2 *)
Definition preproc_item (item : str) : str * option str :=
  let '(a, b) := split_first "=" item in
  let key := strip a in
  (match after_prefix (L "-D") key with Some k => k | None => key end, option_map strip b).
Definition preproc_defs (a : preproc_arg) : list (str * option str) :=
  fold_left (fun d i => let '(k, v) := preproc_item i in set k v d) (preproc_list a) [].

(* L156-170: kinds recorded, and whether an error was found *)
Definition kind_step (st : list (str * str) * bool) (kind : str) : list (str * str) * bool :=
  match map strip (split_on "=" (strip kind)) with
  | [n; s] => (set n s (fst st), snd st)
  | _ => (fst st, true)
  end.
(* L171-174 *)
Definition with_default (d : list (str * str)) : list (str * str) :=
  match get (L "kind_phys") d with Some _ => d | None => set (L "kind_phys") (L "REAL64") d end.
(* __init__: preproc_defs and kind_dict, or the ValueError of L222 *)
Definition env_init (a : preproc_arg) (kinds : list str) : res (list (str * option str) * list (str * str)) :=
  let '(kd, bad) := fold_left kind_step kinds ([], false) in
  if bad then Raise "ValueError" else Ok (preproc_defs a, with_default kd).

(* xml_tools.py, find_schema_version, L102-151; None: no version attribute *)
Definition schema_version (version : option str) : res (Z * Z) :=
  match version with
  | None => Raise "CCPPError"
  | Some v =>
      match split_on "." v with
      | [a; b] =>
          match py_int a, py_int b with
          | Some x, Some y => if (x <? 1)%Z then Raise "CCPPError" else if (y <? 0)%Z then Raise "CCPPError" else Ok (x, y)
          | _, _ => Raise "CCPPError"
          end
      | _ => Raise "CCPPError"
      end
  end.
(* find_schema_file, L162-164: the file name; the numbers are not negative *)
Definition schema_file (root : str) (v : nat * nat) : str :=
  root ++ L "_v" ++ str_of_nat (fst v) ++ L "_" ++ str_of_nat (snd v) ++ L ".xsd".
