(* C92: sorted lists and dictionaries with any comparison (Source/Collections/List.h, Source/Collections/Dictionary.h) *)
From Verif Require Import Base LstModel LstSpec SrtModel SrtSpec DctModel AnyModel AnySpec AnyProofs AnyProofs2 AngProofs3.
Open Scope Z_scope.

(* Whatever the comparison answers, and whenever it throws: every history of a sorted list is defined and terminates, and every
   step is one of AnySpec.any_step; in particular a step left by an exception changes nothing. *)
Theorem C92_sorted_list : forall (A St : Type) cmp less st os, Forall (client_ok A) os ->
  exists y st' rs l, arun A St cmp less empty_lst st os = Ok (y, st', rs) /\ lst_shows A y l /\ any_run A St cmp less [] os l rs.
Proof. exact any_list_ok. Qed.
Print Assumptions C92_sorted_list.
(* The same for dictionaries: keys and values stay in step, and every step is one of AnySpec.pair_step. *)
Theorem C92_dictionary : forall (A V St : Type) cmp less st os,
  exists d st' rs m, adrun A V St cmp less empty_dict st os = Ok (d, st', rs) /\
    lst_shows A (keys d) (map fst m) /\ lst_shows V (vals d) (map snd m) /\ pair_run A V St cmp less [] os m rs.
Proof. exact any_dict_ok. Qed.
Print Assumptions C92_dictionary.
(* What a dictionary holds after any history: every key was given, and its value was given with this key or with a key it was called equal to. *)
Theorem C92_pairs : forall (A V St : Type) cmp less st os d st' rs k v i,
  adrun A V St cmp less empty_dict st os = Ok (d, st', rs) -> get A (keys d) i = Ok k -> get V (vals d) i = Ok v ->
  (exists w, In (DAdd k w) os \/ In (DSet k w) os) /\
  exists k', (In (DAdd k' v) os \/ In (DSet k' v) os) /\ (k' = k \/ called_equal A St cmp k k').
Proof. exact any_pairs_ok. Qed.
Print Assumptions C92_pairs.
(* Exceptions of comparisons are not swallowed: if no operation ends in an error, comparing has not failed. *)
Theorem C92_list_propagates : forall (A St : Type) cmp less (calm : St -> Prop), keeps_calm cmp less calm ->
  forall os x st y st' rs, calm st -> arun A St cmp less x st os = Ok (y, st', rs) -> ~ In RError rs -> calm st'.
Proof. exact arun_calm. Qed.
Print Assumptions C92_list_propagates.
Theorem C92_dictionary_propagates : forall (A V St : Type) cmp less (calm : St -> Prop), keeps_calm cmp less calm ->
  forall os d st d' st' rs, calm st -> adrun A V St cmp less d st os = Ok (d', st', rs) -> ~ In OError rs -> calm st'.
Proof. exact adrun_calm. Qed.
Print Assumptions C92_dictionary_propagates.
(* For comparisons that are functions these are the sorted lists of C19 and the dictionaries of C21. *)
Theorem C92_list_agrees : forall (A : Type) c os, Forall (client_ok A) os ->
  exists y rs, arun A unit (fixed_cmp c) (fixed_less c) empty_lst tt os = Ok (y, tt, rs) /\ s_run A c empty_lst os = Ok (y, rs).
Proof. exact list_agrees. Qed.
Print Assumptions C92_list_agrees.
Theorem C92_dictionary_agrees : forall (A V : Type) c os,
  exists d rs, adrun A V unit (fixed_cmp c) (fixed_less c) empty_dict tt os = Ok (d, tt, rs) /\ d_run A V c empty_dict os = Ok (d, rs).
Proof. exact dict_agrees. Qed.
Print Assumptions C92_dictionary_agrees.

(* comparison number 2 throws: the first Add of 4 is given up, the second one succeeds *)
Example C92_list_case :
  Forall (client_ok Z) [SAdd 5; SAdd 3; SAdd 4; SAdd 4; SIndexOf 5; SRemoveAt 0] /\
  arun Z nat count_cmp count_less empty_lst 0%nat [SAdd 5; SAdd 3; SAdd 4; SAdd 4; SIndexOf 5; SRemoveAt 0]
  = Ok (mkLst [Live 4; Live 5; Raw; Raw] 2 4 5, 8%nat, [RInt 0; RInt 0; RError; RInt 1; RInt 2; RBool true]).
Proof. split; [repeat constructor|]. reflexivity. Qed.
(* a comparison without sense: 1 is stored twice, Get(7) finds a value, Set(4) replaces one, Remove(9) removes a pair *)
Example C92_dictionary_case :
  adrun Z Z bool odd_cmp odd_less empty_dict false
    [DAdd 1 10; DAdd 1 11; DCount; DGet 7; DContains 1; DSet 4 40; DRemove 9; DCount; DKeyAt 0; DValueAt 0]
  = Ok (mkDict (mkLst [Live 1; Raw] 1 2 1) (mkLst [Live 11; Raw] 1 2 1), false,
        [OBool true; OBool true; OInt 2; OVal 11; OBool true; OBool true; OBool true; OInt 1; OKey 1; OVal 11]).
Proof. reflexivity. Qed.
Example C92_propagates_case : keeps_calm count_cmp count_less (fun st => (st <= 2)%nat) /\
  exists y, arun Z nat count_cmp count_less empty_lst 0%nat [SAdd 5; SAdd 3] = Ok (y, 2%nat, [RInt 0; RInt 0]).
Proof.
  split; [split; intros st a b st' c H E; unfold count_cmp, count_less in E; destruct (Nat.eqb_spec st 2); try discriminate; injection E as <- _; lia|].
  eexists. reflexivity.
Qed.
