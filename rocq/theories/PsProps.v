(* PsProps.v: C176-C178, the subroutines ccpp_prebuild finds in a scheme's file (scripts/metadata_parser.py). *)
From Coq Require Import List Ascii String ZArith Bool Lia.
From Verif Require Import PyStr Base ReqModel ReqProofs CommonModel ParModel ParProofs ActModel ArModel ArProofs NmModel NmSpec NmProofs NmProps PsModel PsSpec PsProofs.
Import ListNotations.
Open Scope nat_scope. Open Scope list_scope.

(* a file with comments, a helper, an internal procedure and two scheme subroutines *)
Definition err_vars : list raw :=
  [mkRaw (L "ccpp_error_message") [] (L "none") (L "errmsg") (L "character") [] (L "len=*") (L "out") (Some (L ".true.")) (Some false) false;
   mkRaw (L "ccpp_error_code") [] (L "1") (L "errflg") (L "integer") [] [] (L "out") (Some (L ".true.")) (Some false) false].
Definition ps_meta : list header := [mkHead [] [] [mkSec (L "foo_init") []; mkSec (L "foo_run") (hle :: err_vars)]].
Definition ps_file : list str :=
  [L "! a scheme";
   L "MODULE foo ! the module";
   L "  implicit none";
   L "contains";
   L "";
   L "!> \section arg_table_foo_init Arguments";
   L "!!";
   L "  subroutine foo_init()";
   L "  END SUBROUTINE";
   L "!! \section arg_table_foo_run Arguments";
   L "!! \htmlinclude foo_run.html";
   L "!!";
   L "  subroutine foo_run (im, &";
   L "                      errmsg, errflg)";
   L "  contains";
   L "    subroutine foo_finalize()";
   L "    end subroutine foo_finalize";
   L "  end subroutine foo_run";
   L "  subroutine helper";
   L "  end subroutine helper";
   L "end module foo"].
Example ps_example : parse_scheme ps_meta ps_file = Ok [(L "foo", [(L "foo_init", []); (L "foo_run", [L "horizontal_loop_extent"; L "ccpp_error_message"; L "ccpp_error_code"])])].
Proof. vm_compute. reflexivity. Qed.

Lemma parse_scheme_inv headers file lines args : logical file lines -> parse_scheme headers file = Ok args ->
  exists mods, parse_modules headers lines mods None = Ok args /\ (exists c, minv lines c mods).
Proof.
  intros LG H. unfold parse_scheme in H. rewrite (logical_join _ _ LG) in H. apply bind_inv in H as (mods & M & H).
  exists mods. split; [exact H|]. apply (find_modules_inv lines [] None []) in M; [exact M|apply minv_nil].
Qed.
Lemma parsed_inv headers lines c mods m t : minv lines c mods -> In m mods -> parsed headers lines m t ->
  exists e subs last, module_lines lines (m_name m) (m_start m) e /\ inv lines (m_name m) (m_start m) e (mkScan subs None last) /\ tables headers lines (m_name m) subs = Ok t.
Proof.
  intros I IM (lst & subs & l' & SU & T). destruct (subroutines_inv lines m lst subs l') as (e & last & E & V); auto.
  { intros e E. destruct (n_end _ _ _ I m e IM E) as [A (x & N & _)]. split; [exact A|]. apply nth_error_Some. congruence. }
  exists e, subs, last. split; [|split; [exact V|exact T]].
  destruct (n_end _ _ _ I m e IM E) as [A B]. split; [exact A|]. split; [exact (n_start _ _ _ I m IM)|]. split; [exact B|].
  intros i l D N C. assert (Q : match m_end m with Some e => e < i | None => True end) by (now rewrite E).
  destruct (n_later _ _ _ I m IM i l ltac:(lia) Q N C) as (h & o & X & (y & U & V')). exists h, y, o. auto.
Qed.

(* C176: every scheme subroutine of every module is found, unless it is internal to one that is *)
Theorem C176_found headers file lines args : logical file lines -> parse_scheme headers file = Ok args ->
  forall k l m, nth_error lines k = Some l -> opens_module l m -> exists j, module_lines lines m k j /\
  forall p x n o, k <= p < j -> nth_error lines p = Some x -> opens_sub x n -> phase_sub o n ->
  exists q n' e, k <= q <= p /\ p < e < j /\ line_is lines q (fun y => opens_sub y n') /\ phase_sub m n' /\ line_is lines e (fun y => closes_sub y n') /\
    recorded args m n' /\ (q < p \/ (n' = n /\ o = m)).
Proof.
  intros LG H k l m N O. destruct (parse_scheme_inv _ _ _ _ LG H) as (mods & P & c & I).
  destruct (n_all _ _ _ I k l m N O) as (md & IM & <- & <-). destruct (parse_modules_inv _ _ _ _ _ P) as [P1 _]. destruct (P1 md IM) as (t & PT & R).
  destruct (parsed_inv _ _ _ _ _ _ I IM PT) as (e & subs & last & ML & V & T). exists e. split; [exact ML|].
  intros p x n o B NP OP PH. destruct (i_all _ _ _ _ _ V p x n o B NP OP PH) as [(s & IS & D1 & D2)|(n' & q & X & _)]; [|discriminate]. cbn [done] in IS.
  destruct (i_done _ _ _ _ _ V s IS) as (F1 & F2 & F3 & F4 & F5). exists (s_start s), (s_name s), (s_end s).
  split; [lia|]. split; [lia|]. split; [exact F3|]. split; [exact F4|]. split; [exact F5|]. split; [|exact D2].
  assert (IN : In (s_name s) (map fst t)) by (rewrite (tables_names _ _ _ _ _ T); now apply in_map).
  destruct R as [->|R]; [destruct IN|]. exists t. auto.
Qed.
Print Assumptions C176_found.

(* and nothing else is *)
Theorem C176_only headers file lines args m n : logical file lines -> parse_scheme headers file = Ok args -> recorded args m n ->
  exists k j q e, module_lines lines m k j /\ k <= q < e /\ e < j /\ line_is lines q (fun y => opens_sub y n) /\ phase_sub m n /\ line_is lines e (fun y => closes_sub y n).
Proof.
  intros LG H (subs' & I1 & I2). destruct (parse_scheme_inv _ _ _ _ LG H) as (mods & P & c & I). destruct (parse_modules_inv _ _ _ _ _ P) as [_ P2].
  destruct (P2 m subs' I1) as (md & IM & <- & PT). destruct (parsed_inv _ _ _ _ _ _ I IM PT) as (e & subs & last & ML & V & T).
  rewrite (tables_names _ _ _ _ _ T) in I2. apply in_map_iff in I2 as (s & <- & IS). destruct (i_done _ _ _ _ _ V s IS) as (F1 & F2 & F3 & F4 & F5).
  exists (m_start md), e, (s_start s), (s_end s). split; [exact ML|]. split; [exact F1|]. split; [exact F2|]. auto.
Qed.
Print Assumptions C176_only.

Theorem C176_once headers file args : parse_scheme headers file = Ok args -> NoDup (map fst args) /\ forall m subs, In (m, subs) args -> NoDup (map fst subs).
Proof.
  intros H. destruct (logical_some file) as (lines & LG). destruct (parse_scheme_inv _ _ _ _ LG H) as (mods & P & c & I). split.
  - apply parse_modules_names in P; [apply P|exact (n_once _ _ _ I)].
  - intros m t IT. destruct (parse_modules_inv _ _ _ _ _ P) as [_ P2]. destruct (P2 m t IT) as (md & IM & <- & PT).
    destruct (parsed_inv _ _ _ _ _ _ I IM PT) as (e & subs & last & ML & V & T). rewrite (tables_names _ _ _ _ _ T). exact (i_once _ _ _ _ _ V).
Qed.
Print Assumptions C176_once.

(* the example is an instance: the internal foo_finalize is inside foo_run *)
Example C176_example : exists lines args, logical ps_file lines /\ parse_scheme ps_meta ps_file = Ok args /\ recorded args (L "foo") (L "foo_run") /\
  ~ recorded args (L "foo") (L "foo_finalize") /\ exists k l, nth_error lines k = Some l /\ opens_module l (L "foo").
Proof.
  destruct (logical_some ps_file) as (lines & LG). exists lines. eexists. split; [exact LG|]. split; [exact ps_example|]. apply logical_join in LG.
  split; [eexists; split; [now left|now right; left]|]. split.
  - intros (subs & [E|[]] & I). apply pair_equal_spec in E as [_ <-]. destruct I as [I|[I|[]]]; discriminate.
  - exists 1. eexists. split; [rewrite <- LG; vm_compute; reflexivity|]. apply opens_mod_code. do 2 eexists. split; [vm_compute; reflexivity|]. split; reflexivity.
Qed.
Example C176_example_foreign : parse_scheme [] [L "module a"; L "subroutine b_run"; L "end subroutine b_run"; L "end module a"] = Raise "Exception".
Proof. vm_compute. reflexivity. Qed.

(* Fortran does not distinguish upper and lower case, the phase of a subroutine's name does *)
Theorem C176_case_refuted : exists f1 f2, map lower f1 = map lower f2 /\ (exists a, parse_scheme [] f1 = Ok a /\ recorded a (L "foo") (L "foo_run")) /\ parse_scheme [] f2 = Ok [].
Proof.
  exists [L "module foo"; L "subroutine foo_run"; L "end subroutine foo_run"; L "end module foo"], [L "module foo"; L "subroutine foo_RUN"; L "end subroutine foo_RUN"; L "end module foo"].
  split; [reflexivity|]. split; [|vm_compute; reflexivity]. eexists. split; [vm_compute; reflexivity|]. eexists. split; [now left|now left].
Qed.
Print Assumptions C176_case_refuted.
(* a subroutine with a prefix such as pure is not found *)
Theorem C176_prefix_refuted : exists f l, nth_error f 1 = Some (L "pure " ++ l) /\ opens_sub l (L "foo_run") /\ phase_sub (L "foo") (L "foo_run") /\ parse_scheme [] f = Ok [].
Proof.
  exists [L "module foo"; L "pure subroutine foo_run(a)"; L "end subroutine foo_run"; L "end module foo"], (L "subroutine foo_run(a)").
  split; [reflexivity|]. split; [apply opens_code; do 3 eexists; split; [vm_compute; reflexivity|split; reflexivity]|]. split; [|vm_compute; reflexivity].
  now apply scheme_phase.
Qed.
Print Assumptions C176_prefix_refuted.

(* C177: the arguments of a subroutine are the standard names of the variables of its metadata table, in order,
   if the nearest line above that mentions arg_table_ and its name is the header of a table with an \htmlinclude line; and there are none otherwise *)
Theorem C177_table headers file lines args m subs n a : logical file lines -> parse_scheme headers file = Ok args -> In (m, subs) args -> In (n, a) subs ->
  mandatory_in a /\ exists k j q, module_lines lines m k j /\ k <= q < j /\ line_is lines q (fun y => opens_sub y n) /\
  ((a = [] /\ forall i, i <= q -> ~ mentioned n (nth i lines [])) \/
   exists h, h <= q /\ header_line n (nth h lines []) /\ (forall i, h < i <= q -> ~ mentioned n (nth i lines [])) /\
     ((a = [] /\ words_in (nth (h + 1) lines []) [L "!!"]) \/
      exists x vars, words_in (nth (h + 1) lines []) [L "!!"; L "\htmlinclude"; x] /\ words_in (nth (h + 2) lines []) [L "!!"] /\
        of_table n (all_sections headers) vars /\ a = map r_std vars)).
Proof.
  intros LG H I1 I2. destruct (parse_scheme_inv _ _ _ _ LG H) as (mods & P & c & I). destruct (parse_modules_inv _ _ _ _ _ P) as [_ P2].
  destruct (P2 m subs I1) as (md & IM & <- & PT). destruct (parsed_inv _ _ _ _ _ _ I IM PT) as (e & sl & last & ML & V & T).
  apply tables_inv in T. assert (K : exists s, In s sl /\ n = s_name s /\ table_args (read_new_metadata headers (m_name md) (s_name s) (Some (m_name md))) lines (s_name s) (s_start s) = Ok a).
  { clear - T I2. induction T as [|s e l r [E1 E2] _ IH]; [destruct I2|]. destruct I2 as [->|I2]; [exists s; split; [now left|auto]|]. destruct (IH I2) as (s' & A & B). exists s'. split; [now right|exact B]. }
  destruct K as (s & IS & -> & TA). apply table_args_inv in TA as [MA D]. split; [exact MA|]. exists (m_start md), e, (s_start s). destruct (i_done _ _ _ _ _ V s IS) as (F1 & F2 & F3 & _).
  split; [exact ML|]. split; [lia|]. split; [exact F3|]. destruct D as [D|(h & D1 & D2 & D3 & D)]; [now left|right]. exists h. repeat split; auto.
  destruct D as [D|(x & rmd & deps & D4 & D5 & R & ->)]; [now left|right]. destruct (C173_converted _ _ _ _ _ _ R) as (vars & cc & OT & _ & F & _).
  exists x, vars. repeat split; auto. clear - F. induction F as [|r e l mm [E _] F IH]; cbn [map]; [reflexivity|]. now rewrite E, IH.
Qed.
Print Assumptions C177_table.
Example C177_example : exists subs, In (L "foo", subs) [(L "foo", [(L "foo_init", []); (L "foo_run", [L "horizontal_loop_extent"; L "ccpp_error_message"; L "ccpp_error_code"])])] /\
  In (L "foo_run", [L "horizontal_loop_extent"; L "ccpp_error_message"; L "ccpp_error_code"]) subs /\ mandatory_in [L "horizontal_loop_extent"; L "ccpp_error_message"; L "ccpp_error_code"].
Proof. eexists. split; [now left|]. split; [now right; left|]. right. split; [now right; left|now right; right; left]. Qed.

(* but the header only has to contain the name: without a table of its own a subroutine takes the header of one whose name is longer *)
Theorem C177_substring_refuted : exists f1 f2 meta e,
  f2 = List.filter (fun l => negb (str_eqb l (L "!! \section arg_table_foo_run_old"))) f1 /\
  parse_scheme meta f1 = Ok [(L "foo", [(L "foo_run", [L "horizontal_loop_extent"; L "ccpp_error_message"; L "ccpp_error_code"])])] /\
  parse_scheme meta f2 = Ok [(L "foo", [(L "foo_run", e)])] /\ e = [].
Proof.
  exists [L "module foo"; L "!! \section arg_table_foo_run_old"; L "!! \htmlinclude foo_run_old.html"; L "!!"; L "subroutine foo_run"; L "end subroutine foo_run"; L "end module foo"].
  eexists. exists ps_meta, []. split; [reflexivity|]. split; [vm_compute; reflexivity|]. split; [vm_compute; reflexivity|reflexivity].
Qed.
Print Assumptions C177_substring_refuted.
(* and a comment that mentions the table between the table and the subroutine stops ccpp_prebuild *)
Example C177_example_mention : parse_scheme ps_meta [L "module foo"; L "!! \section arg_table_foo_run"; L "!! \htmlinclude foo_run.html"; L "!!"; L "! see arg_table_foo_run"; L "subroutine foo_run"; L "end subroutine foo_run"; L "end module foo"] = Raise "Exception".
Proof. vm_compute. reflexivity. Qed.

(* C178: the statements of a file are well defined, and the result depends on nothing else *)
Theorem C178_defined file : exists lines, logical file lines /\ forall lines', logical file lines' -> lines' = lines.
Proof.
  destruct (logical_some file) as (lines & LG). exists lines. split; [exact LG|]. intros lines' LG'. apply logical_join in LG, LG'. congruence.
Qed.
Print Assumptions C178_defined.
Theorem C178_continuation headers f1 f2 lines : logical f1 lines -> logical f2 lines -> parse_scheme headers f1 = parse_scheme headers f2.
Proof. intros A B. unfold parse_scheme. now rewrite (logical_join _ _ A), (logical_join _ _ B). Qed.
Print Assumptions C178_continuation.
Example C178_example : logical [L "subroutine foo_run(a, &"; L ""; L "  b)"; L "return"] [L "subroutine foo_run(a,    b)"; L "return"].
Proof. destruct (C178_defined [L "subroutine foo_run(a, &"; L ""; L "  b)"; L "return"]) as (l & A & _). pose proof A as B. apply logical_join in B. vm_compute in B. subst l. exact A. Qed.

(* but comments are not left out: a comment that ends with & makes a comment of the next line *)
Theorem C178_comment_refuted : exists a b c, startswith (L "!") c = true /\ ends (L "&") c /\
  (exists r, parse_scheme [] (a ++ b) = Ok r /\ recorded r (L "foo") (L "foo_run")) /\ parse_scheme [] (a ++ c :: b) = Ok [].
Proof.
  exists [L "module foo"], [L "subroutine foo_run"; L "end subroutine foo_run"; L "end module foo"], (L "! runs this & that &").
  split; [reflexivity|]. split; [exists (L "! runs this & that "); reflexivity|]. split; [|vm_compute; reflexivity].
  eexists. split; [vm_compute; reflexivity|]. eexists. split; [now left|now left].
Qed.
Print Assumptions C178_comment_refuted.
