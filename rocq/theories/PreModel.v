(* PreModel.v: how ccpp_prebuild.py collects the variables requested by the schemes and
   compares them with those of the host (scripts/mkcap.py Var, scripts/metadata_parser.py
   merge_dictionaries and the merge in parse_scheme_tables, scripts/ccpp_prebuild.py
   compare_metadata).  Log messages are not modelled, except that one of them reads
   modules[-1]. *)
From Verif Require Import PyStr ReqModel UnitModel CommonModel DictModel.
From Coq Require Import Lia.
Open Scope nat_scope.
Open Scope list_scope.

(* mkcap.py Var L21-40; the attributes active, optional, pointer and long_name play no
   part here; of the dimensions only their number (rank, L95-103) is used *)
Record pvar := mkP { p_std : str; p_units : str; p_local : str; p_type : str; p_rank : nat; p_kind : str; p_intent : str;
                     p_cont : str; p_target : option str; p_in : option str; p_out : option str }.
Definition set_kind (k : str) (v : pvar) : pvar :=
  mkP (p_std v) (p_units v) (p_local v) (p_type v) (p_rank v) k (p_intent v) (p_cont v) (p_target v) (p_in v) (p_out v).
Definition set_target (t : str) (v : pvar) : pvar :=
  mkP (p_std v) (p_units v) (p_local v) (p_type v) (p_rank v) (p_kind v) (p_intent v) (p_cont v) (Some t) (p_in v) (p_out v).
Definition set_in (t : str) (v : pvar) : pvar :=
  mkP (p_std v) (p_units v) (p_local v) (p_type v) (p_rank v) (p_kind v) (p_intent v) (p_cont v) (p_target v) (Some t) (p_out v).
Definition set_out (t : str) (v : pvar) : pvar :=
  mkP (p_std v) (p_units v) (p_local v) (p_type v) (p_rank v) (p_kind v) (p_intent v) (p_cont v) (p_target v) (p_in v) (Some t).
(* compatible, mkcap.py L198-214 *)
Definition pcompat (a b : pvar) : bool :=
  if str_eqb (p_type a) (L "character") &&
     ((str_eqb (p_kind a) (L "len=*") && startswith (L "len=") (p_kind b)) ||
      (startswith (L "len=") (p_kind a) && str_eqb (p_kind b) (L "len=*")))
  then str_eqb (p_std a) (p_std b) && str_eqb (p_type a) (p_type b) && Nat.eqb (p_rank a) (p_rank b)
  else str_eqb (p_std a) (p_std b) && str_eqb (p_type a) (p_type b) && str_eqb (p_kind a) (p_kind b) && Nat.eqb (p_rank a) (p_rank b).

(* standard name -> list of variables *)
Definition meta := list (str * list pvar).
(* one argument table: read_new_metadata L243-247 refuses a repeated standard name *)
Fixpoint check_table (seen : list str) (t : list pvar) : res unit :=
  match t with
  | [] => Ok tt
  | v :: r => if mem (p_std v) seen then Raise "Exception" else check_table (p_std v :: seen) r
  end.
(* one variable of a table, metadata_parser.py L696-709 *)
Definition add_var (m : meta) (v : pvar) : res meta :=
  match get (p_std v) m with
  | None => Ok (set (p_std v) [v] m)
  | Some l => if forallb (fun e => pcompat e v) l then Ok (set (p_std v) (l ++ [v]) m) else Raise "Exception"
  end.
Fixpoint fold_res {A B} (f : A -> B -> res A) (a : A) (l : list B) : res A :=
  match l with [] => Ok a | x :: r => a' <- f a x ;; fold_res f a' r end.
Definition add_table (m : meta) (t : list pvar) : res meta := _ <- check_table [] t ;; fold_res add_var m t.
(* one file with its tables (parse_scheme_tables L514-716) *)
Definition read_file (tables : list (list pvar)) : res meta := fold_res add_table [] tables.
(* set() of keys: one occurrence each; the order does not matter, the list is sorted *)
Definition dedup (l : list str) : list str := fold_left s_add l [].
(* merge_dictionaries, L71-102, for dictionaries of Var *)
Definition merge_key (x y : meta) (z : meta) (k : str) : res meta :=
  match get k x, get k y with
  | Some lx, Some ly =>
      match lx, ly with
      | a :: _, b :: _ => if pcompat a b then Ok (set k (lx ++ ly) z) else Raise "Exception"
      | _, _ => Raise "IndexError"
      end
  | Some lx, None => Ok (set k lx z)
  | None, Some ly => Ok (set k ly z)
  | None, None => Ok z
  end.
Definition merge (x y : meta) : res meta := fold_res (merge_key x y) [] (sorted (dedup (map fst x ++ map fst y))).
(* collect_physics_subroutines L329-354, the metadata_request part *)
Definition collect (files : list (list (list pvar))) : res meta :=
  fold_res (fun m f => y <- read_file f ;; merge m y) [] files.

(* convert_to L216-224, convert_from L226-235: the name of the function, and the template
   it returns; a missing function raises *)
Definition find_conversion (from to : str) : res str :=
  a <- to_identifier from ;;
  b <- to_identifier to ;;
  match find_fun unit_functions (a ++ L "__to__" ++ b) with Some t => Ok t | None => Raise "Exception" end.
(* compare_metadata L469-483 *)
Definition register (host_units : str) (v : pvar) : res pvar :=
  if str_eqb (p_units v) host_units then Ok v
  else if str_eqb (p_intent v) (L "inout") then
         a <- find_conversion host_units (p_units v) ;;
         b <- find_conversion (p_units v) host_units ;;
         Ok (set_out b (set_in a v))
  else if str_eqb (p_intent v) (L "in") then a <- find_conversion host_units (p_units v) ;; Ok (set_in a v)
  else if str_eqb (p_intent v) (L "out") then b <- find_conversion (p_units v) host_units ;; Ok (set_out b v)
  else Ok v.
Fixpoint map_res {A B} (f : A -> res B) (l : list A) : res (list B) :=
  match l with [] => Ok [] | x :: r => y <- f x ;; ys <- map_res f r ;; Ok (y :: ys) end.
(* L503-515: the items of the host's container *)
Definition item_head (i : str) : str := match split_on "_" i with h :: _ => h | [] => [] end.
Definition item_modules (i : str) : list str :=
  if str_eqb (item_head i) (L "MODULE") then [join (L "_") (tl (split_on "_" i))] else [].
Definition item_known (i : str) : bool := str_eqb (item_head i) (L "MODULE") || str_eqb (item_head i) (L "TYPE").
(* L520-531: modules[-1] is read for the message; kind is the variable last set at L518 *)
Definition retarget (target : str) (kind : option str) (mods : list str) (v : pvar) : res pvar :=
  match mods with
  | [] => Raise "IndexError"
  | _ => if str_eqb (p_type v) (L "character") && str_eqb (p_kind v) (L "len=*")
         then match kind with Some k => Ok (set_kind k (set_target target v)) | None => Raise "UnboundLocalError" end
         else Ok (set_target target v)
  end.
Record cstate := mkC { c_ok : bool; c_mods : list str; c_kind : option str; c_out : meta }.
Definition failed (st : cstate) : cstate := mkC false (c_mods st) (c_kind st) (c_out st).
(* the loop body of compare_metadata, L438-531 *)
Definition compare_one (def req : meta) (st : cstate) (k : str) : res cstate :=
  match get k def with
  | None => Ok (failed st)
  | Some [] => Raise "IndexError"
  | Some (_ :: _ :: _) => Ok (failed st)
  | Some [h] =>
      match get k req with
      | Some (r :: rs) =>
          if negb (pcompat r h) then Ok (failed st) else
          conv <- map_res (register (p_units h)) (r :: rs) ;;
          let items := split_on " " (p_cont h) in
          let mods := c_mods st ++ flat_map item_modules items in
          let kind := if str_eqb (p_type h) (L "character") then Some (p_kind h) else c_kind st in
          out <- map_res (retarget (p_local h) kind mods) conv ;;
          Ok (mkC (c_ok st && forallb item_known items) mods kind (set k out (c_out st)))
      | _ => Raise "IndexError"
      end
  end.
(* compare_metadata L430-537 *)
Definition compare (def req : meta) : res (bool * list str * meta) :=
  st <- fold_res (compare_one def req) (mkC true [] None []) (sorted (map fst req)) ;;
  Ok (c_ok st, sorted (dedup (c_mods st)), c_out st).
