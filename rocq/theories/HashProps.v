(* HashProps.v: properties C01-C03 (src/ccpp_hash_table.F90). *)
From Verif Require Import Base HashModel HashSpec HashProofs.
Open Scope Z_scope.

(* C01. Every history of calls gives the answers of a plain keyed collection. *)
Theorem C01_hash_table_is_a_map :
  forall (V : Type) (key : V -> string) (ops : list (hop V)),
    snd (hrun key ht_new ops) = snd (srun key SUninit ops).
Proof. exact hash_refines_map. Qed.
Print Assumptions C01_hash_table_is_a_map.

Lemma hadd_fail_same V (key : V -> string) t v :
  snd (hstep key t (HAdd v)) = HFail -> fst (hstep key t (HAdd v)) = t.
Proof.
  simpl. unfold ht_add.
  destruct (key_hash _ _ _); [|auto].
  destruct (ht_value _ _ _); auto.
  destruct (tbl_at _ _) as [b|]; auto.
  destruct (ht_table _); auto.
  destruct (b_val b); simpl; intros H; discriminate H.
Qed.

(* C01. A rejected add changes nothing in the table (not even statistics). *)
Theorem C01_rejected_add_changes_nothing :
  forall (V : Type) (key : V -> string) (t : htable V) (v : V),
    snd (hstep key t (HAdd v)) = HFail -> fst (hstep key t (HAdd v)) = t.
Proof. exact hadd_fail_same. Qed.
Print Assumptions C01_rejected_add_changes_nothing.

(* A history with collisions (exponent 1: two buckets), a duplicate that differs
   in trailing blanks only, and a clear. *)
Example C01_example :
  snd (hrun (fun s : string => s) ht_new
        [HValue "a"; HInit 1 None; HAdd "abc"; HAdd "xyz"; HAdd "q"; HAdd "zz"; HAdd "abc  ";
         HValue "q "; HValue "zz"; HValue "none"; HNum; HClear; HValue "q"; HNum])
  = [HFail; HDone; HDone; HDone; HDone; HDone; HFail;
     HVal "q"; HVal "zz"; HFail; HCount 4; HDone; HFail; HCount 0].
Proof. vm_compute. reflexivity. Qed.

Lemma hash_in_bounds V (t : htable V) e ko k : 0 <= e ->
  let t' := ht_initialize t e ko in
  ht_size t' = 2 ^ Z.min e 30 /\
  exists h, key_hash (ht_size t') (ht_off t') k = Some h /\ 1 <= h <= ht_size t'.
Proof.
  intros He. cbn [ht_initialize ht_size ht_off]. rewrite init_size by lia.
  split; [reflexivity|]. apply key_hash_pow. lia.
Qed.

(* C02. In an initialised table every key hashes to an existing bucket. *)
Theorem C02_hash_in_bounds :
  forall V (t : htable V) (e : Z) (ko : option Z) (k : string), 0 <= e ->
    let t' := ht_initialize t e ko in
    ht_size t' = 2 ^ Z.min e 30 /\
    exists h, key_hash (ht_size t') (ht_off t') k = Some h /\ 1 <= h <= ht_size t'.
Proof. exact hash_in_bounds. Qed.
Print Assumptions C02_hash_in_bounds.

(* C02. No call in any history indexes outside the table. *)
Theorem C02_no_access_out_of_bounds :
  forall (V : Type) (key : V -> string) (ops : list (hop V)),
    ~ In HOob (snd (hrun key ht_new ops)).
Proof. exact hash_never_out_of_bounds. Qed.
Print Assumptions C02_no_access_out_of_bounds.

Example C02_example : key_hash 8 (-5) "water_vapor" = Some 4.
Proof. vm_compute. reflexivity. Qed.

(* C03, the part that holds: a non-empty table reached by any history is
   iterated completely: every stored object exactly once (as a permutation of
   the accepted objects), then the iterator is invalid (iter_collect stops). *)
Theorem C03_iteration_partial :
  forall (V : Type) (key : V -> string) (ops : list (hop V)) (l : list V),
    fst (srun key SUninit ops) = SReady l -> l <> [] ->
    exists it, iter_initialize (fst (hrun key ht_new ops)) = Some it /\
      exists vals, Permutation vals l /\
        forall fuel, (length l < fuel)%nat ->
          iter_collect fuel (fst (hrun key ht_new ops)) it = Some (map Some vals).
Proof. exact iterate_reachable. Qed.
Print Assumptions C03_iteration_partial.

Example C03_example :
  let ops := [HInit 2 None; HAdd "abc"; HAdd "xyz"; HAdd "q"; HAdd "zz"; HAdd "w"; HAdd "e"] in
  let t := fst (hrun (fun s : string => s) ht_new ops) in
  fst (srun (fun s : string => s) SUninit ops) = SReady ["abc"; "xyz"; "q"; "zz"; "w"; "e"] /\
  match iter_initialize t with Some it => iter_collect 7 t it | None => None end
    = Some [Some "xyz"; Some "q"; Some "e"; Some "w"; Some "abc"; Some "zz"].
Proof. split; vm_compute; reflexivity. Qed.

(* C03 is false of the code for an empty table: initialising an iterator on any
   initialised table without entries reads table(table_size+1). *)
Theorem C03_iteration_of_empty_table_refuted :
  forall (V : Type) (key : V -> string) (ops : list (hop V)),
    fst (srun key SUninit ops) = SReady [] ->
    iter_initialize (fst (hrun key ht_new ops)) = None.
Proof. exact iterate_empty_oob. Qed.
Print Assumptions C03_iteration_of_empty_table_refuted.

Example C03_refuted_example :
  fst (srun (fun s : string => s) SUninit [HInit 3 None]) = SReady [].
Proof. reflexivity. Qed.
