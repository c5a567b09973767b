(* MetaSpec.v: what a metadata file says. *)
From Verif Require Import PyStr PhaseSpec CheckSpec MetaModel.
Open Scope nat_scope.
Open Scope list_scope.

(* ---- logical lines: a backslash at the end of a line joins the next one to it ---- *)
Definition ends_bs (l : str) : Prop := exists t, rstrip l = t ++ ["092"%char].
(* the text of a physical line: no trailing blanks, no continuation mark *)
Definition line_text (l t : str) : Prop :=
  rstrip l = t ++ ["092"%char] \/ (~ ends_bs l /\ t = rstrip l).
(* a group of physical lines: all but the last one are continued *)
Definition group (g : list str) : Prop :=
  exists a z, g = a ++ [z] /\ (forall l, In l a -> ends_bs l).
(* the groups of a file; only the last line of the file may leave a mark behind *)
Definition line_groups (raw : list str) (gs : list (list str)) : Prop :=
  raw = List.concat gs /\ Forall group gs /\
  forall a g b z, gs = a ++ (g ++ [z]) :: b -> b <> [] -> ~ ends_bs z.
Definition group_text (g : list str) (t : str) : Prop :=
  exists ts, Forall2 line_text g ts /\ t = List.concat ts.

(* ---- lines ---- *)
(* no text, or a comment *)
Definition blank_line (l : str) : Prop :=
  l = [] \/ exists w c r, l = w ++ c :: r /\ all_space w /\ (c = "#"%char \/ c = ";"%char).
(* blanks, then the word in brackets, in any letter case, then anything *)
Definition marker (word l : str) : Prop :=
  exists w1 w2 t w3 r, l = w1 ++ L "[" ++ w2 ++ t ++ w3 ++ L "]" ++ r /\
    all_space w1 /\ all_space w2 /\ all_space w3 /\ lower t = word.
Definition table_line (l : str) : Prop := marker (L "ccpp-table-properties") l.
Definition section_line (l : str) : Prop := marker (L "ccpp-arg-table") l.
(* [name] or [name(subscripts)], the bracket in the first column and nothing after *)
Definition bracketed (s l : str) : Prop := exists w1 w2, l = L "[" ++ w1 ++ s ++ w2 ++ L "]" /\ all_space w1 /\ all_space w2.
Definition variable_line (l : str) : Prop :=
  (exists n, fortran_name n /\ bracketed n l) \/ (exists s n dims, array_ref s n dims /\ bracketed s l).
(* the pieces of a line: name = value | name = value | ... *)
Definition pieces (s : str) (kvs : list (str * str)) : Prop :=
  kvs <> [] /\ s = join (L "|") (map (fun kv => fst kv ++ L "=" ++ snd kv) kvs) /\
  forall k v, In (k, v) kvs -> ~ In "="%char k /\ ~ In "|"%char k /\ ~ In "|"%char v.
Definition line_settings (l : str) (kvs : list (str * str)) : Prop :=
  (blank_line l /\ kvs = []) \/
  (~ blank_line l /\ exists ps, pieces (strip l) ps /\ kvs = map (fun kv => (lower (strip (fst kv)), strip (snd kv))) ps).
(* all settings of a list of lines, in order *)
Definition settings (ls : list str) (kvs : list (str * str)) : Prop :=
  exists each, Forall2 line_settings ls each /\ kvs = List.concat each.
(* the last value set for a key *)
Definition last_set (kvs : list (str * str)) (k : str) (o : option str) : Prop :=
  match o with
  | Some v => exists a b, kvs = a ++ (k, v) :: b /\ forall v', ~ In (k, v') b
  | None => forall v', ~ In (k, v') kvs
  end.

(* ---- blocks: lines cut before every line with a property ---- *)
Definition blocks (P : str -> Prop) (ls pre : list str) (bs : list (str * list str)) : Prop :=
  ls = pre ++ List.concat (map (fun hb => fst hb :: snd hb) bs) /\
  (forall l, In l pre -> ~ P l) /\
  (forall h b, In (h, b) bs -> P h /\ forall l, In l b -> ~ P l).

(* ---- variables ---- *)
(* assignment in a Python dictionary *)
Fixpoint assign (d : props) (k : str) (v : pval) : props :=
  match d with
  | [] => [(k, v)]
  | (k', v') :: t => if str_eq_dec k k' then (k, v) :: t else (k', v') :: assign t k v
  end.
Definition type_text (s : str) : Prop :=
  In (lower (strip s)) (map L ["integer"; "real"; "logical"; "complex"; "double precision"; "character"]%string) \/
  exists w r, all_space w /\ lower (strip s) = L "double" ++ w ++ L "precision" ++ r.
(* a dimension without a colon starts at one *)
Definition as_range (d r : str) : Prop := (In ":"%char d /\ r = d) \/ (~ In ":"%char d /\ r = L "ccpp_constant_one:" ++ d).
(* the property that a setting stands for; [K]: the known derived types *)
Definition property (C : checker) (skip : bool) (K : str -> Prop) (kv : str * str) (p : str * pval) : Prop :=
  let '(k, v) := kv in
  (k = L "type" /\ ~ type_text v /\ (skip = true \/ K v) /\ p = (L "ddt_type", PText v)) \/
  (~ (k = L "type" /\ ~ type_text v) /\ exists valid x, c_prop C k = Some valid /\ valid v = Some x /\
     ((k <> L "dimensions" /\ p = (k, x)) \/
      (k = L "dimensions" /\ exists ds rs, x = PList ds /\ Forall2 as_range ds rs /\ p = (k, PList rs)) \/
      (k = L "dimensions" /\ exists t, x = PText t /\ p = (k, x)))).
Definition number_of (s : str) (l : list str) (n : nat) : Prop := n = count_occ str_eq_dec l s.
(* the properties of the variable with header [l] and lines [body] *)
Definition var_means (C : checker) (skip : bool) (K : str -> Prop) (l : str) (body : list str) (d : props) : Prop :=
  exists kvs ps, settings body kvs /\ Forall2 (property C skip K) kvs ps /\ c_var C d = true /\
  ((exists n, fortran_name n /\ bracketed n l /\
      d = fold_left (fun d p => assign d (fst p) (snd p)) ps [(L "local_name", PText n)]) \/
   (exists s n subs vdims, array_ref s n subs /\ bracketed s l /\
      let d0 := fold_left (fun d p => assign d (fst p) (snd p)) ps [(L "local_name", PText n)] in
      In (L "dimensions", PList vdims) d0 /\ number_of (L ":") subs (length vdims) /\
      d = assign d0 (L "local_name") (PText (n ++ L "(" ++ join (L ", ") subs ++ L ")")))).

(* ---- sections ---- *)
(* the scheme a subroutine name belongs to: the name without its phase suffix *)
Definition scheme_of (title name : str) : Prop :=
  (exists t p, title = name ++ L "_" ++ t /\ scheme_phase name t p /\ ~ shadowed name p) \/
  ((forall f t p, title = f ++ L "_" ++ t -> ~ scheme_phase f t p) /\ name = title).
Inductive vars_mean (C : checker) (skip : bool) (K : str -> Prop) : list props -> list (str * list str) -> list props -> Prop :=
| VNone vs : vars_mean C skip K vs [] vs
| VMore vs l body bs d vs' : var_means C skip K l body d -> c_add C vs d = true ->
    vars_mean C skip K (vs ++ [d]) bs vs' -> vars_mean C skip K vs ((l, body) :: bs) vs'.
Definition section_means (C : checker) (skip : bool) (dmod : str) (K : str -> Prop) (tname ttype : option str) (body : list str) (s : section) : Prop :=
  exists pre bs kvs proc, blocks variable_line body pre bs /\ settings pre kvs /\
    (forall k v, In (k, v) kvs -> In k [L "name"; L "type"; L "module"; L "process"]) /\
    (forall v, In (L "type", v) kvs -> In v [L "ddt"; L "host"; L "module"; L "scheme"; L "local"]) /\
    (forall v, In (L "module", v) kvs -> v <> L "None") /\
    last_set kvs (L "name") (Some (s_title s)) /\
    last_set kvs (L "type") (Some (s_type s)) /\
    (last_set kvs (L "module") (Some (s_module s)) \/ (last_set kvs (L "module") None /\ s_module s = dmod)) /\
    last_set kvs (L "process") proc /\ s_process s = match proc with Some p => p | None => L "UNKNOWN" end /\
    (s_process s <> L "UNKNOWN" -> s_type s = L "scheme") /\
    ttype = Some (s_type s) /\
    (exists n, tname = Some n /\ ((s_type s = L "scheme" /\ scheme_of (s_title s) n) \/ (s_type s <> L "scheme" /\ s_title s = n))) /\
    vars_mean C skip (fun v => K v \/ (s_type s = L "ddt" /\ v = s_title s)) [] bs (s_vars s).

(* ---- tables ---- *)
(* the comma separated names of a dependencies setting *)
Definition names_in (v : str) (ds : list str) : Prop :=
  ds = List.filter (fun x => match x with [] => false | _ => true end) (map strip (split_on "," v)).
Definition is_none (v : str) : Prop := lower v = L "none".
(* all the names; "none" must not follow or precede a name *)
Definition dependencies (vs : list str) (ds : list str) : Prop :=
  ((forall v, In v vs -> ~ is_none v) /\ exists each, Forall2 names_in vs each /\ ds = List.concat each) \/
  (exists a b, vs = a ++ b /\ b <> [] /\ (forall v, In v a -> ~ is_none v /\ names_in v []) /\ (forall v, In v b -> is_none v) /\ ds = []).
Definition values_of (k : str) (kvs : list (str * str)) : list str :=
  map snd (List.filter (fun kv => if str_eq_dec (fst kv) k then true else false) kvs).
Definition table_means (C : checker) (skip : bool) (dmod : str) (K : str -> Prop) (body : list str) (t : table) : Prop :=
  exists pre bs kvs, blocks section_line body pre bs /\ settings pre kvs /\
    (forall k v, In (k, v) kvs -> In k [L "name"; L "type"; L "dependencies"; L "relative_path"]) /\
    (forall v, In (L "type", v) kvs -> In v [L "ddt"; L "host"; L "module"; L "scheme"]) /\
    last_set kvs (L "name") (t_name t) /\ last_set kvs (L "type") (t_type t) /\ last_set kvs (L "relative_path") (t_path t) /\
    dependencies (values_of (L "dependencies") kvs) (t_deps t) /\
    Forall2 (fun hb s => section_means C skip dmod K (t_name t) (t_type t) (snd hb) s) bs (t_sections t) /\
    (In (t_type t) [Some (L "ddt"); Some (L "host"); Some (L "module")] -> length bs <= 1).

(* ---- files ---- *)
Inductive tables_mean (C : checker) (skip : bool) (dmod : str) : (str -> Prop) -> list (str * list str) -> list table -> Prop :=
| TNone K : tables_mean C skip dmod K [] []
| TMore K h body bs t ts : table_means C skip dmod K body t ->
    tables_mean C skip dmod (fun v => K v \/ (t_type t = Some (L "ddt") /\ t_name t = Some v)) bs ts ->
    tables_mean C skip dmod K ((h, body) :: bs) (t :: ts).
(* comments, then the tables, no two with the same name; [ddts] are the derived types
   known beforehand *)
Definition file_means (C : checker) (skip : bool) (dmod : str) (ddts : list str) (ls : list str) (ts : list table) : Prop :=
  exists pre bs, blocks table_line ls pre bs /\ (forall l, In l pre -> blank_line l) /\
    tables_mean C skip dmod (fun v => In v ddts) bs ts /\ NoDup (map t_name ts).

(* ---- the scheme names of a file (its lines as read, newlines included) ---- *)
(* the first character that is no blank is an opening bracket *)
Definition opens (l : str) : Prop := exists r, strip l = L "[" ++ r.
(* the names set in the table header: the lines before the first one that opens *)
Definition header_names (b : list str) (ns : list str) : Prop :=
  exists hd rest kvs, b = hd ++ rest /\ (forall l, In l hd -> ~ opens l) /\
    match rest with [] => True | l :: _ => opens l end /\
    settings (map strip hd) kvs /\ ns = values_of (L "name") kvs.
