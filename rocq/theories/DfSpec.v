(* DfSpec.v: what a build system asks of the datatable. *)
From Coq Require Import Sorting.Sorted.
From Verif Require Import PyStr XmlModel XmlSpec DfModel.
Open Scope nat_scope.
Open Scope list_scope.

(* the run wrote its datatable and a later program read it *)
Definition datatable (d : dinput) (t : tree) : Prop :=
  exists e out, generate d = Ok e /\ xml_tree e /\ write e = Ok out /\ reads_doc out t.
(* a file name that a text element can hold: not empty, no white space around it *)
Definition file_name (f : str) : Prop := f <> [] /\ strip f = f.
(* f is the path of the file called name in the directory dir *)
Inductive path_of : str -> str -> str -> Prop :=
| po_here name : path_of [] name name
| po_slash dir name : path_of (dir ++ L "/") name (dir ++ L "/" ++ name)
| po_dir dir c name : c <> "/"%char -> path_of (dir ++ [c]) name (dir ++ [c] ++ L "/" ++ name).
(* order of strings, character by character *)
Inductive str_le : str -> str -> Prop :=
| le_nil s : str_le [] s
| le_lt a b s t : code a < code b -> str_le (a :: s) (b :: t)
| le_eq a s t : str_le s t -> str_le (a :: s) (a :: t).
Definition in_order (l : list str) : Prop := StronglySorted str_le l.
(* the scheme call has an entry point described by the header h *)
Definition described (d : dinput) (c : scall) (h : header) : Prop :=
  In c (di_calls d) /\ sc_has c = true /\ In h (di_headers d) /\ hd_title h = sc_sub c.
