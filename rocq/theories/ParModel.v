(* ccpp_prebuild: what the local name of a host variable says -- the variable it is
   a part of, the variables used as indices, the subscripts of the last component --
   and the arguments of a group cap derived from it.
   Models /repo/scripts/mkstatic.py: extract_parents_and_indices_from_local_name
   L72-L108, extract_dimensions_from_local_name L110-L149, the subscripts of an
   actual argument in Group.write L1455-L1520 and L1522-L1530, the table of local
   names L1066-L1068, and the collection of the group's arguments L1215-L1341.
   Texts are ASCII. *)
From Coq Require Import List Ascii String ZArith Bool.
From Verif Require Import PyStr SelModel.
Import ListNotations.
Open Scope nat_scope. Open Scope list_scope.

Definition has_char (c : ascii) (s : str) : bool := existsb (Ascii.eqb c) s.
(* s[:s.find(c)] when c is in s *)
Fixpoint before_char (c : ascii) (s : str) : str :=
  match s with [] => [] | d :: r => if Ascii.eqb c d then [] else d :: before_char c r end.
(* s[s.find(c):] when c is in s *)
Fixpoint from_char (c : ascii) (s : str) : str :=
  match s with [] => [] | d :: r => if Ascii.eqb c d then s else from_char c r end.

(* L79-L84: the text between the first closing parenthesis and the last opening one
   before it.  None: last_open or last_closed is not set in this pass.
   Simplification: Python would use values left from the pass before. *)
Fixpoint innermost (open : option str) (s : str) : option str :=
  match s with
  | [] => None
  | c :: r =>
      if Ascii.eqb c "("%char then innermost (Some []) r
      else if Ascii.eqb c ")"%char then option_map (@rev ascii) open
      else innermost (option_map (cons c) open) r
  end.
(* L86-L96: the names in one group of subscripts *)
Definition index_name (i : str) : list str :=
  match i with
  | [] => []
  | _ => if has_char "%"%char i then [before_char "%"%char i]
         else match py_int i with Some _ => [] | None => [i] end
  end.
Definition index_names (g : str) : list str :=
  concat (map index_name (concat (map (split_on ":"%char) (split_on ","%char g)))).
(* L76-L98 *)
Fixpoint peel (fuel : nat) (indices : list str) (s : str) : res (list str * str) :=
  if has_char "("%char s then
    match fuel with
    | O => Raise "loops"
    | S f =>
        match innermost None s with
        | Some g => peel f (indices ++ index_names g) (replace ("("%char :: g ++ [")"%char]) [] s)
        | None => Raise "UnboundLocalError"
        end
    end
  else Ok (indices, s).
(* list(set(...)): some order, each once *)
Fixpoint dedup (l : list str) : list str :=
  match l with [] => [] | x :: r => if existsb (str_eqb x) r then dedup r else x :: dedup r end.
(* L72-L108 *)
Definition parents_and_indices (s : str) : res (str * list str) :=
  r <- peel (length s) [] s ;;
  let parent := if has_char "%"%char (snd r) then before_char "%"%char (snd r) else snd r in
  Ok (strip parent, map strip (dedup (fst r))).

(* L113-L127: what follows the last % outside parentheses; the walk goes from the
   right, [opened] counts closing parentheses not yet opened *)
Fixpoint last_component (rev_s acc : str) (opened : Z) : option str :=
  match rev_s with
  | [] => None
  | c :: r =>
      if Ascii.eqb c ")"%char then last_component r (c :: acc) (opened + 1)
      else if Ascii.eqb c "("%char then last_component r (c :: acc) (opened - 1)
      else if (Ascii.eqb c "%"%char && (opened =? 0)%Z)%bool then Some acc
      else last_component r (c :: acc) opened
  end.
Definition component (s : str) : str :=
  if has_char "%"%char s then match last_component (rev s) [] 0 with Some c => c | None => s end else s.
(* L136-L146: [opened] stays 0; the walk over the text after the opening
   parenthesis, up to and including its last character *)
Fixpoint walk_dims (s dim : str) : list str :=
  match s with
  | [] => []
  | c :: r =>
      if Ascii.eqb c ","%char then dim :: walk_dims r []
      else match r with
           | [] => match dim with [] => [] | _ => [dim] end
           | _ => walk_dims r (dim ++ [c])
           end
  end.
(* s[i:j+1] with i the first "(" and j the last ")" *)
Definition paren_part (s : str) : str :=
  rev (from_char ")"%char (rev (from_char "("%char s))).
(* L110-L149.  Simplification: with no ")" after the "(" (j = -1 or before i) the
   slice of Python is empty; here paren_part gives [] then too. *)
Definition dimensions_of (s : str) : list str * str :=
  let c := component s in
  if has_char "("%char c then (walk_dims (tl (paren_part c)) [], paren_part c) else ([], []).

(* L1475-L1512: the subscripts of the actual argument; [subs] are the sections the
   scheme's dimensions stand for, [dims] the subscripts of the local name.
   Simplification: the text is built with commas after each subscript and the last
   comma stripped; no subscript ends with a comma, so this is a join. *)
Fixpoint merge_dims (dims subs : list str) : res (list str * list str * list str) :=
  match dims with
  | [] => Ok ([], [], subs)
  | d :: r =>
      if has_char ":"%char d then
        match subs with
        | [] => Raise "IndexError: list index out of range"
        | x :: subs' =>
            m <- merge_dims r subs' ;;
            Ok (x :: fst (fst m), x :: snd (fst m), snd m)
        end
      else
        m <- merge_dims r subs ;;
        Ok (d :: fst (fst m), snd (fst m), snd m)
  end.
Definition enclose (l : list str) : str := "("%char :: join (L ",") l ++ [")"%char].
Definition subscripts (dims subs : list str) : res (str * str) :=
  match dims with
  | [] => Ok (enclose subs, enclose subs)
  | _ =>
      if (length dims <? length subs)%nat then Raise "Exception: this should not happen"
      else
        m <- merge_dims dims subs ;;
        match snd m with
        | [] => Ok (enclose (fst (fst m)), enclose (snd (fst m)))
        | _ => Raise "Exception: mismatch of derived dimensions"
        end
  end.

(* ---------------------------------------------------------------- the group's arguments *)
(* a host variable: metadata_define[standard_name][0] *)
Record hvar := mkHV { hv_local : str; hv_dims : list str }.
Definition hostdefs := list (str * hvar).
Fixpoint assoc {A} (l : list (str * A)) (n : str) : option A :=
  match l with [] => None | (k, v) :: r => if str_eqb k n then Some v else assoc r n end.
Fixpoint put {A} (l : list (str * A)) (n : str) (v : A) : list (str * A) :=
  match l with [] => [(n, v)] | (k, w) :: r => if str_eqb k n then (k, v) :: r else (k, w) :: put r n v end.
(* standard_name_by_local_name_define, L1066-L1068: for equal local names the last
   variable stays *)
Definition by_local (defs : hostdefs) (n : str) : option str :=
  assoc (rev (map (fun p => (hv_local (snd p), fst p)) defs)) n.
(* L1254-L1259: (:), (:,:), ... *)
Definition colons (i : nat) : str :=
  match i with O => [] | S _ => "("%char :: join (L ",") (List.repeat (L ":") i) ++ [")"%char] end.
(* L1253-L1263: i from 0 to FORTRAN_ARRAY_MAX_DIMS = 15, L34 *)
Definition find_parent (inv : str -> option str) (n : str) : option str :=
  fold_right (fun i r => match inv (n ++ colons i) with Some p => Some p | None => r end) None (seq 0 16).

Inductive intent := IIn | IOut | IInOut.
Definition is_in (i : intent) : bool := match i with IIn => true | _ => false end.
Definition is_out (i : intent) : bool := match i with IOut => true | _ => false end.
(* L1296-L1317; [main]: local_name_define == parent_local_name_define *)
Definition touch_intent (old : option intent) (main : bool) (i : intent) : intent :=
  match old with
  | None => if main then i else IIn
  | Some IIn => if (main && negb (is_in i))%bool then IInOut else IIn
  | Some IOut => IInOut
  | Some IInOut => IInOut
  end.
(* L1336-L1339 *)
Definition again_intent (old i : intent) : intent :=
  match old with
  | IIn => if is_in i then IIn else IInOut
  | IOut => if is_out i then IOut else IInOut
  | IInOut => IInOut
  end.

(* additional_variables_required, local_vars (standard name -> parent), self.parents
   of the stage (standard name -> intent), the host variables *)
Record gst := mkG { g_add : list str; g_known : list (str * str); g_par : list (str * intent); g_defs : hostdefs }.
Definition mem_s (x : str) (l : list str) : bool := existsb (str_eqb x) l.

Section Group.
Variable inv : str -> option str.   (* the table of local names, made once *)
(* L1279-L1293: the bounds of the dimensions of a parent *)
Definition parent_dim (args : list str) (st : gst) (b : str) : res gst :=
  let b := lower b in
  match py_int b with
  | Some _ => Ok st
  | None =>
      if mem_s b (map fst (g_known st)) then Ok st
      else if mem_s b (g_add st ++ args) then Ok st
      else if mem_s b (map fst (g_defs st)) then Ok (mkG (g_add st ++ [b]) (g_known st) (g_par st) (g_defs st))
      else Raise "Exception: dimension, required by parent variable, not defined"
  end.
Fixpoint fold_st {A} (f : gst -> A -> res gst) (l : list A) (st : gst) : res gst :=
  match l with [] => Ok st | x :: r => s <- f st x ;; fold_st f r s end.
(* L1249-L1325: one of the parent and the indices of a variable *)
Definition touch (args : list str) (var : str) (i : intent) (parent : str) (st : gst) (n : str) : res gst :=
  match find_parent inv n with
  | None => Raise "Exception: parent variable not defined in host model metadata"
  | Some p =>
      match assoc (g_defs st) p with
      | None => Raise "KeyError"
      | Some v =>
          let defs := put (g_defs st) p (mkHV n (hv_dims v)) in
          st <- fold_st (parent_dim args) (concat (map (split_on ":"%char) (hv_dims v)))
                  (mkG (g_add st) (g_known st) (g_par st) defs) ;;
          let main := str_eqb n parent in
          Ok (mkG (g_add st) (if main then put (g_known st) var p else g_known st)
                (put (g_par st) p (touch_intent (assoc (g_par st) p) main i)) (g_defs st))
      end
  end.
(* L1218-L1339: one variable.  [i] is its intent, L1219-L1232. *)
Definition visit (args : list str) (st : gst) (vi : str * intent) : res gst :=
  let (var, i) := vi in
  match assoc (g_known st) var with
  | Some p =>
      match assoc (g_par st) p with
      | Some q => Ok (mkG (g_add st) (g_known st) (put (g_par st) p (again_intent q i)) (g_defs st))
      | None => Raise "KeyError"
      end
  | None =>
      match assoc (g_defs st) var with
      | None => Raise "KeyError"
      | Some v =>
          pi <- parents_and_indices (hv_local v) ;;
          fold_st (touch args var i (fst pi)) (fst pi :: snd pi) st
      end
  end.
(* one of the two passes, L1217-L1341: first the additional variables, with intent
   in, then the arguments of the scheme *)
Definition pass (args : list (str * intent)) (st : gst) : res gst :=
  fold_st (visit (map fst args)) (map (fun n => (n, IIn)) (g_add st) ++ args) st.
(* a scheme: its additional variables (ActModel.requirements) and arguments *)
Definition scheme (st : gst) (s : list str * list (str * intent)) : res gst :=
  st1 <- pass (snd s) (mkG (fst s) (g_known st) (g_par st) (g_defs st)) ;;
  pass (snd s) st1.
End Group.
(* the schemes of one stage of a group: local_vars and self.parents start empty
   (L1055, L1092), [inv] is made at the start of the group (L1066-L1068) *)
Definition stage (inv : str -> option str) (defs : hostdefs) (ss : list (list str * list (str * intent))) : res gst :=
  fold_st (scheme inv) ss (mkG [] [] [] defs).
Definition parents := list (str * intent).
Definition stageargs := list (list str * list (str * intent)).
(* Group.write L1061-L1915, the part on arguments: the stages one after the other.
   A group that is only initialised (L1087-L1090) is one whose other stages call
   no scheme. *)
Fixpoint stages (inv : str -> option str) (defs : hostdefs) (l : list stageargs) : res (list parents * hostdefs) :=
  match l with
  | [] => Ok ([], defs)
  | ss :: r => st <- stage inv defs ss ;; m <- stages inv (g_defs st) r ;; Ok (g_par st :: fst m, snd m)
  end.
Definition group (defs : hostdefs) (l : list stageargs) : res (list parents * hostdefs) := stages (by_local defs) defs l.
(* Suite.write L847-L856: the parents of the groups of a suite *)
Definition merge_parent (acc : parents) (pq : str * intent) : parents :=
  put acc (fst pq) (match assoc acc (fst pq) with None => snd pq | Some o => again_intent o (snd pq) end).
Definition merge_parents (acc g : parents) : parents := fold_left merge_parent g acc.
Fixpoint merge_stages (acc g : list parents) : list parents :=
  match acc, g with a :: acc, x :: g => merge_parents a x :: merge_stages acc g | _, _ => acc end.
(* L841-L856: the groups one after the other *)
Fixpoint suite (defs : hostdefs) (gs : list (list stageargs)) (acc : list parents) : res (list parents) :=
  match gs with
  | [] => Ok acc
  | g :: r => m <- group defs g ;; suite (snd m) r (merge_stages acc (fst m))
  end.
