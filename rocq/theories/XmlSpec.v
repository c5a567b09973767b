(* XmlSpec.v: what an XML reader makes of a text (the part of XML the datatable uses), and
   when a tree read from a file is the tree that was written. *)
From Verif Require Import PyStr XmlModel.
Open Scope nat_scope.
Open Scope list_scope.

(* a tree as read: each child comes with the text between it and the next tag *)
Inductive tree := Node (tag : str) (attrs : list (str * str)) (text : str) (kids : list (tree * str)).

(* names of elements and attributes: letters, digits, underscore, not empty *)
Definition xml_name (s : str) : Prop := s <> [] /\ forall c, In c s -> is_word c = true.
(* characters that a document may contain and that a reader hands over unchanged *)
Definition xml_char (c : ascii) : Prop := 32 <= code c \/ c = nl \/ c = tab.
Definition entity (n : str) (c : ascii) : Prop :=
  In (n, c) [(L "&amp;", "&"%char); (L "&lt;", "<"%char); (L "&gt;", ">"%char); (L "&quot;", dquote);
             (L "&#10;", nl); (L "&#13;", cr); (L "&#09;", tab)].
(* character data with references: the first string is the text, the second its meaning;
   [plain] says which characters stand for themselves *)
Inductive reads_chars (plain : ascii -> Prop) : str -> str -> Prop :=
| rc_nil : reads_chars plain [] []
| rc_plain c e d : plain c -> reads_chars plain e d -> reads_chars plain (c :: e) (c :: d)
| rc_ent n c e d : entity n c -> reads_chars plain e d -> reads_chars plain (n ++ e) (c :: d).
Definition plain_text (c : ascii) : Prop := xml_char c /\ c <> "&"%char /\ c <> "<"%char /\ c <> ">"%char.
Definition plain_attr (c : ascii) : Prop :=
  32 <= code c /\ c <> "&"%char /\ c <> "<"%char /\ c <> ">"%char /\ c <> dquote.
Inductive reads_attrs : str -> list (str * str) -> Prop :=
| ra_nil : reads_attrs [] []
| ra_cons k e v s l : xml_name k -> reads_chars plain_attr e v -> reads_attrs s l ->
    reads_attrs (L " " ++ k ++ L "=" ++ [dquote] ++ e ++ [dquote] ++ s) ((k, v) :: l).
(* an element, and the children of an element each followed by text *)
Inductive reads : str -> tree -> Prop :=
| r_empty tag a attrs : xml_name tag -> reads_attrs a attrs ->
    reads (L "<" ++ tag ++ a ++ L " />") (Node tag attrs [] [])
| r_elem tag a attrs t text s kids : xml_name tag -> reads_attrs a attrs -> reads_chars plain_text t text ->
    reads_kids s kids ->
    reads (L "<" ++ tag ++ a ++ L ">" ++ t ++ s ++ L "</" ++ tag ++ L ">") (Node tag attrs text kids)
with reads_kids : str -> list (tree * str) -> Prop :=
| rk_nil : reads_kids [] []
| rk_cons s1 k t text s ks : reads s1 k -> reads_chars plain_text t text -> reads_kids s ks ->
    reads_kids (s1 ++ t ++ s) ((k, text) :: ks).
(* a document: one element, perhaps with white space around it *)
Definition reads_doc (s : str) (t : tree) : Prop :=
  exists a x b, s = a ++ x ++ b /\ strip a = [] /\ strip b = [] /\ reads x t.

(* the tree read back is the tree written, but for white space: the same tag, the same
   attributes in the same order, the same children in the same order; a leaf has its text
   without surrounding white space; the text of an element with children is the same up to
   surrounding white space, and only white space follows a child *)
Inductive kept : elem -> tree -> Prop :=
| kept_node tag attrs text kids text' kids' :
    strip text' = strip text -> (kids = [] -> text' = strip text) ->
    kept_list kids kids' ->
    kept (Elem tag attrs text kids) (Node tag attrs text' kids')
with kept_list : list elem -> list (tree * str) -> Prop :=
| kl_nil : kept_list [] []
| kl_cons e t s es ts : kept e t -> strip s = [] -> kept_list es ts -> kept_list (e :: es) ((t, s) :: ts).

(* the elements of a tree *)
Inductive within (x : elem) : elem -> Prop :=
| within_self : within x x
| within_kid tag attrs text kids k : In k kids -> within x k -> within x (Elem tag attrs text kids).
(* trees that XML can hold: names are names, texts are made of document characters *)
Definition xml_tree (e : elem) : Prop :=
  forall tag attrs text kids, within (Elem tag attrs text kids) e ->
    xml_name tag /\ (forall k v, In (k, v) attrs -> xml_name k /\ (forall c, In c v -> xml_char c \/ c = cr)) /\
    (forall c, In c text -> xml_char c).
(* what the pretty printer can print: an element with nothing in it has no attribute value
   with a slash, and an element with something in it has an attribute or a tag of two or
   more characters *)
Definition printable (e : elem) : Prop :=
  forall tag attrs text kids, within (Elem tag attrs text kids) e ->
    (text = [] /\ kids = [] -> forall k v, In (k, v) attrs -> ~ In "/"%char v) /\
    (text <> [] \/ kids <> [] -> attrs <> [] \/ 2 <= length tag).
(* the layout: the line of each tag starts with two spaces per level *)
