(* XmlModel.v: scripts/parse_tools/xml_tools.py, PrettyElementTree (L251-340) with its three
   regular expressions (L23-25), over the text that ET.tostring (Python's library) makes of
   a tree.
   Simplified: an element has no tail (the text after it): every element the repository
   creates is made by ET.Element or ET.SubElement, which leave the tail empty; characters
   are ASCII (other characters are written as numeric references); the indentation count
   does not go below zero (it never does on the text of a tree); the file holds what was
   written when an exception is raised, the model then gives the exception only. *)
From Verif Require Import PyStr Regex.
Open Scope nat_scope.
Open Scope list_scope.

(* an ElementTree element: tag, attributes in the order they were set, text ([] for None
   or the empty string, which tostring does not distinguish), sub-elements *)
Inductive elem := Elem (tag : str) (attrs : list (str * str)) (text : str) (kids : list elem).

Definition dquote : ascii := ascii_of_nat 34.
Definition tab : ascii := ascii_of_nat 9.
Definition cr : ascii := ascii_of_nat 13.
(* ET.tostring: _escape_cdata and _escape_attrib of the Python library *)
Definition esc_text_c (c : ascii) : str :=
  if Ascii.eqb c "&" then L "&amp;" else if Ascii.eqb c "<" then L "&lt;"
  else if Ascii.eqb c ">" then L "&gt;" else [c].
Definition esc_attr_c (c : ascii) : str :=
  if Ascii.eqb c "&" then L "&amp;" else if Ascii.eqb c "<" then L "&lt;"
  else if Ascii.eqb c ">" then L "&gt;" else if Ascii.eqb c dquote then L "&quot;"
  else if Ascii.eqb c nl then L "&#10;" else if Ascii.eqb c cr then L "&#13;"
  else if Ascii.eqb c tab then L "&#09;" else [c].
Definition attr_text (a : str * str) : str :=
  " "%char :: fst a ++ "="%char :: dquote :: flat_map esc_attr_c (snd a) ++ [dquote].
(* tag and attributes, as they follow the opening angle bracket *)
Definition head_text (tag : str) (attrs : list (str * str)) : str := tag ++ flat_map attr_text attrs.
(* ET.tostring(root, encoding="us-ascii", short_empty_elements=True): Python library *)
Fixpoint tostring (e : elem) : str :=
  match e with
  | Elem tag attrs text kids =>
      "<"%char :: head_text tag attrs ++
      match text, kids with
      | [], [] => L " />"
      | _, _ => ">"%char :: flat_map esc_text_c text ++ flat_map tostring kids ++ L "</" ++ tag ++ L ">"
      end
  end.

(* xml_tools.py L23-25 *)
Definition no_slash (c : ascii) : bool := negb (Ascii.eqb c "/").
Definition no_angle (c : ascii) : bool := negb (Ascii.eqb c "<") && negb (Ascii.eqb c ">").
Definition beg_tag_re : re :=
  Cat (ch "<") (Cat (Cls no_slash) (Cat (Star (Cls no_angle)) (Cat (Cls no_slash) (ch ">")))).
Definition end_tag_re : re :=
  Cat (ch "<") (Cat (ch "/") (Cat (plus (Cls (fun c => no_angle c && no_slash c))) (ch ">"))).
Definition simple_tag_re : re :=
  Cat (ch "<") (Cat (Cls no_slash) (Cat (plus (Cls (fun c => no_angle c && no_slash c))) (Cat (ch "/") (ch ">")))).
(* pattern.match(s).group(1): the longest match from the first character, which is what the
   greedy repetitions of these three patterns find *)
Fixpoint longest (r : re) (s : str) : option str :=
  match s with
  | [] => if nullable r then Some [] else None
  | c :: t => match longest (deriv c r) t with
              | Some p => Some (c :: p)
              | None => if nullable r then Some [] else None
              end
  end.

(* _write, L258-260: _INDENT_STR (two spaces, L21) times the indentation *)
Definition ind (n : nat) : str := List.concat (List.repeat (L "  ") n).
Definition pre (o : str) (r : res str) : res str := x <- r ;; Ok (o ++ x).
(* one turn after another of the while loop, L295-337; [s] is inline[istart:].  The turns
   are counted by [fuel]. *)
Fixpoint pretty (fuel : nat) (s : str) (indent : nat) (last_write_text : bool) : res str :=
  match s with
  | [] => Ok []
  | _ :: _ =>
      match fuel with
      | 0 => Raise "out of fuel"%string
      | S k =>
          match longest beg_tag_re s with
          | Some m =>                                           (* L299-309 *)
              match skipn (length m) s with
              | [] => Raise "IndexError"%string
              | (c :: _) as rest =>
                  pre (ind indent ++ m ++ (if Ascii.eqb c "<" then [nl] else []))
                      (pretty k rest (S indent) false)
              end
          | None =>
              match longest end_tag_re s with
              | Some m =>                                       (* L310-319 *)
                  pre ((if last_write_text then [] else ind (pred indent)) ++ m ++ [nl])
                      (pretty k (skipn (length m) s) (pred indent) false)
              | None =>
                  match longest simple_tag_re s with
                  | Some m =>                                   (* L320-324 *)
                      pre (ind indent ++ m ++ [nl]) (pretty k (skipn (length m) s) indent false)
                  | None =>                                     (* L325-336, _inc_pos L262-276 *)
                      match takewhile (fun c => negb (Ascii.eqb c "<")) s with
                      | [] => Raise "XMLToolsInternalError"%string
                      | t => pre (strip t) (pretty k (skipn (length t) s) indent true)
                      end
                  end
              end
          end
      end
  end.
(* write, L278-340: the contents of the file *)
Definition write (e : elem) : res str :=
  let inline := strip (tostring e) in pretty (length inline) inline 0 false.
