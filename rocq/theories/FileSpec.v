(* FileSpec.v: what the file list and file move routines are documented to do,
   without their loops. *)
From Verif Require Import PyStr FileModel.
Open Scope nat_scope.
Open Scope list_scope.

Definition full_name (F : fsys) (name root : str) : str :=
  if isabs name then name else fs_resolve F root name.

(* [f] is one of the source files the list entry [name] stands for: a directory
   stands for its files with an allowed suffix, another name with an allowed suffix
   for the files it matches *)
Definition names_file (F : fsys) (suffices : list str) (name root f : str) : Prop :=
  (fs_isdir F (full_name F name root) = true /\
   exists s, In s suffices /\ In f (fs_glob F (glob_suffix (full_name F name root) s))) \/
  (fs_isdir F (full_name F name root) = false /\ In (suffix_of name) suffices /\
   In f (fs_glob F (full_name F name root))).

(* the list entry [name] is a pattern for text files *)
Definition is_list_entry (F : fsys) (suffices : list str) (name root : str) : Prop :=
  fs_isdir F (full_name F name root) = false /\ ~ In (suffix_of name) suffices /\
  suffix_of name = L "txt".
(* ... and [t] is one of these text files *)
Definition names_list (F : fsys) (suffices : list str) (name root t : str) : Prop :=
  is_list_entry F suffices name root /\ In t (fs_glob F (full_name F name root)).

Definition good (F : fsys) (f : str) : Prop := fs_exists F f = true /\ fs_readable F f = true.

(* the entries of a text file: its lines without blank and comment lines *)
Definition list_entry (F : fsys) (t n : str) : Prop :=
  good F t /\ exists line c rest, In line (fs_lines F t) /\ strip line = c :: rest /\
    c <> "#"%char /\ c <> "!"%char /\
    n = (if isabs (c :: rest) then c :: rest else fs_resolve F (fs_dirname F t) (c :: rest)).

(* entries reached from the given names, following text files *)
Inductive reached (F : fsys) (suffices names : list str) (root : str) : str -> str -> Prop :=
| reached_top n : In n names -> reached F suffices names root n root
| reached_list n r t n' :
    reached F suffices names root n r -> names_list F suffices n r t -> list_entry F t n' ->
    reached F suffices names root n' (fs_dirname F t).

(* something is wrong with entry (n, r): an unreadable source or text file, or a
   text file pattern that matches nothing *)
Definition problem (F : fsys) (suffices : list str) (n r f : str) : Prop :=
  (names_file F suffices n r f /\ ~ good F f) \/
  (names_list F suffices n r f /\ ~ good F f) \/
  (is_list_entry F suffices n r /\ fs_glob F (full_name F n r) = [] /\ f = full_name F n r).
