(* Properties C37, C38 and C66: the control interface. *)
From Verif Require Import Base Model_Ctl Spec_Ctl Proof_Ctl.

(* ---- C37: queries ---- *)
(* Every answered query called the one callback that its name leads to, with the
   argument, and gave its result; or it called nothing and failed, and there is no such
   callback.  Memory outside the tree is read only if the name goes on after a leaf. *)
Theorem C37_query_resolves : forall globals ctl h past a name ty,
  match query globals ctl h past a name ty with ACrash => strays globals ctl name | Ans r log => asks globals ctl h past a name ty r log end.
Proof. exact query_spec. Qed.
Print Assumptions C37_query_resolves.
(* The four queries of an OS provider reach their callbacks, with the pointer of the
   caller; any other name calls nothing. *)
Theorem C37_os_queries : forall inner ty name path p, handle_path name path -> path <> [] -> hd_error path <> Some (s_ "umf") ->
  (forall cb, serves ty path cb -> exists k, umf_ctl inner ty (Some name) true (Some p) = Api SUCCESS [k] /\ c_id k = cb /\ c_arg k = APtr (Some p)) /\
  ((forall cb, ~ serves ty path cb) -> umf_ctl inner ty (Some name) true (Some p) = Api SUCCESS [] \/ (umf_ctl inner ty (Some name) true (Some p) = ApiCrash /\ beyond os_tree path)).
Proof. exact api_spec. Qed.
Print Assumptions C37_os_queries.
Example C37_os_case : exists k, umf_ctl (fun _ _ => 0) QRead (Some (s_ "umf.provider.by_handle.stats.peak_memory")) true (Some 4096) = Api SUCCESS [k] /\ c_id k = 12.
Proof. eexists. split; [vm_compute; reflexivity|reflexivity]. Qed.
Example C37_paths_case : handle_path (s_ "umf.provider..by_handle.stats.reset") [s_ "stats"; s_ "reset"] /\ serves QRunnable [s_ "stats"; s_ "reset"] 13 /\ forall cb, ~ serves QWrite [s_ "stats"; s_ "reset"] cb.
Proof.
  split; [reflexivity|]. split; [right; right; right; auto|]. intros cb [(_ & W & _)|[(_ & W & _)|[(_ & W & _)|(_ & W & _)]]]; discriminate.
Qed.
(* A name that leads to no callback of the library is an unknown error, and calls nothing;
   so is a missing name, handle or argument an invalid argument. *)
Theorem C37_unknown_path : forall inner ty name p, ~ strays global_tree None name ->
  ~ (exists n l cb, resolved global_tree None name n l /\ callback n ty cb) -> umf_ctl inner ty (Some name) true (Some p) = Api ERR_UNKNOWN [].
Proof. exact api_unknown. Qed.
Print Assumptions C37_unknown_path.
Theorem C37_null : forall inner ty name ctx p, name = None \/ ctx = false \/ p = None -> umf_ctl inner ty name ctx p = Api ERR_INVALID_ARGUMENT [].
Proof. intros inner ty [name|] [|] [p|] [E|[E|E]]; try discriminate E; reflexivity. Qed.
Print Assumptions C37_null.
Example C37_unknown_case : umf_ctl (fun _ _ => 0) QRead (Some (s_ "umf.device.by_handle.stats")) true (Some 4096) = Api ERR_UNKNOWN [].
Proof. vm_compute. reflexivity. Qed.
(* A name that goes on after a leaf makes umfCtlGet read through a NULL pointer. *)
Theorem C37_beyond_leaf_refuted : ~ (forall inner name p, umf_ctl inner QRead (Some name) true (Some p) <> ApiCrash).
Proof. intros W. apply (W (fun _ _ => 0) (s_ "umf.provider.by_handle.stats.allocated_memory.x") 0). vm_compute. reflexivity. Qed.
Print Assumptions C37_beyond_leaf_refuted.
(* by_handle within by_handle takes the provider's private data for a handle. *)
Theorem C37_nested_handle_refuted : ~ (forall inner name p, ~ strays global_tree None name -> ~ strays os_tree None (skipn 23 name) -> umf_ctl inner QRead (Some name) true (Some p) <> ApiCrash).
Proof.
  intros W. apply (W (fun _ _ => 0) (s_ "umf.provider.by_handle.umf.provider.by_handle.x") 0).
  - intros [B|(root & E & _)]; [|discriminate]. refine (reach_beyond _ _ _ _ _ B). change (words "." (s_ "umf.provider.by_handle.umf.provider.by_handle.x")) with (s_ "umf" :: s_ "provider" :: s_ "by_handle" :: [s_ "umf"; s_ "provider"; s_ "by_handle"; s_ "x"]). apply handle_reach. discriminate.
  - intros [B|(root & E & _)]; [|discriminate]. change (words "." (skipn 23 (s_ "umf.provider.by_handle.umf.provider.by_handle.x"))) with [s_ "umf"; s_ "provider"; s_ "by_handle"; s_ "x"] in B. unfold os_tree in B.
    inversion B as [ns w m rest F T C NE|ns w m rest ns' F T C R']; subst; (apply first_cons in F; [|discriminate]; destruct F as [(_ & F)|(_ & F)]; [discriminate|]; apply first_cons in F; [|discriminate]; destruct F as [(_ & F)|(_ & F)]; [discriminate|exact (first_nil _ _ F)]).
  - vm_compute. reflexivity.
Qed.
Print Assumptions C37_nested_handle_refuted.
(* A name that the provider does not know is reported as a success. *)
Theorem C37_unknown_name_refuted : ~ (forall inner ty name path p log, handle_path name path -> umf_ctl inner ty (Some name) true (Some p) = Api SUCCESS log -> exists cb, serves ty path cb).
Proof.
  intros W. destruct (W (fun _ _ => 0) QRead (s_ "umf.provider.by_handle.no.such") [s_ "no"; s_ "such"] 0 [] eq_refl ltac:(vm_compute; reflexivity)) as (cb & S).
  destruct S as [(S & _)|[(S & _)|[(S & _)|(S & _)]]]; discriminate.
Qed.
Print Assumptions C37_unknown_name_refuted.
(* What a callback sees of the indexes is a zeroed entry or nothing, for every tree and
   name: the values in the name are never delivered. *)
Theorem C37_indexes_lost : forall globals ctl h past a name ty r k, query globals ctl h past a name ty = Ans r [k] -> c_ix k = [zero_entry] \/ c_ix k = [].
Proof. exact query_indexes. Qed.
Print Assumptions C37_indexes_lost.
Definition arena_tree : list node := [child "arena" [Node (s_ "id") Indexed none [] (Some [leaf_ro "size" 5])]].
Theorem C37_indexes_refuted : ~ (forall globals h name r k, query globals None h [] (APtr (Some 0)) name QRead = Ans r [k] ->
  forall v, In (s_ "7") (words "." name) -> v = 7 -> exists nm, In (nm, v) (c_ix k)).
Proof.
  intros W. assert (Q : query arena_tree None (fun _ _ => 0) [] (APtr (Some 0)) (s_ "arena.7.size") QRead = Ans 0 [CbCall 5 (APtr (Some 0)) [zero_entry] None None]) by (vm_compute; reflexivity).
  destruct (W _ _ _ _ _ Q 7 ltac:(vm_compute; auto) eq_refl) as (nm & [E|[]]). discriminate.
Qed.
Print Assumptions C37_indexes_refuted.

(* ---- C38: configurations ---- *)
(* The pairs between semicolons are run in order as write queries; the first malformed
   or failing one ends the run with -1, otherwise the result is 0. *)
Theorem C38_config_runs : forall globals ctl h buf r log, load_config globals ctl h true buf = Ans r log -> runs globals ctl h [] (words ";" buf) r log.
Proof. exact config_spec. Qed.
Print Assumptions C38_config_runs.
Theorem C38_config_crash : forall globals ctl h ctx buf, load_config globals ctl h ctx buf = ACrash -> exists q n v, In q (words ";" buf) /\ pair_of q n v /\ strays globals ctl n.
Proof. exact config_crash. Qed.
Print Assumptions C38_config_crash.
Definition knob (n : string) (ps : list parser) (cb : Z) := Node (s_ n) Leaf (only QWrite cb) ps None.
Definition knobs : list node := [child "heap" [knob "size" [PInt 4] 7; knob "pair" [PInt 1; PBool] 8; knob "name" [PStr 4] 9]].
Example C38_case : load_config knobs None (fun past k => if c_id k =? 9 then -1 else 0) true (s_ "heap.size=12;heap.pair=255,y;heap.name=abc;heap.size=1") =
  Ans (-1) [CbCall 7 (AValues [VInt 12]) [zero_entry] None None; CbCall 8 (AValues [VInt 255; VInt 1]) [zero_entry] None None; CbCall 9 (AValues [VStr (s_ "abc")]) [zero_entry] None None].
Proof. vm_compute. reflexivity. Qed.
(* A file is loaded as its lines up to a '#', without blanks; one above a
   megabyte or without memory for it is not loaded. *)
Theorem C38_file : forall globals ctl h ctx s, (forall c, In c s -> code c <> 0) -> Z.of_nat (List.length s) <= 2 ^ 20 ->
  load_file globals ctl h ctx true (Some s) = load_config globals ctl h ctx (file_text s).
Proof. exact file_spec. Qed.
Print Assumptions C38_file.
Theorem C38_file_refused : forall globals ctl h ctx room file, file = None \/ room = false \/ (exists s, file = Some s /\ 2 ^ 20 < Z.of_nat (List.length s)) ->
  load_file globals ctl h ctx room file = Ans (-1) [].
Proof.
  intros globals ctl h ctx room file [-> | [-> | (s & -> & L)]]; unfold load_file; [reflexivity| |].
  - destruct file; [rewrite orb_true_r|]; reflexivity.
  - unfold MAX_CONFIG_FILE_LEN. replace (2 ^ 20 <? Z.of_nat (List.length s)) with true by lia. reflexivity.
Qed.
Print Assumptions C38_file_refused.
Example C38_file_case : let nl := [ascii_of_nat 10] in
  file_text (s_ "# sizes" ++ nl ++ s_ "heap . size = 12; # first" ++ nl ++ s_ "heap.pair = 255, y" ++ nl) = s_ "heap.size=12;heap.pair=255,y".
Proof. vm_compute. reflexivity. Qed.
(* Without a context a failing query neither stops the run nor is reported. *)
Theorem C38_no_context_refuted : ~ (forall globals ctl h buf r log, load_config globals ctl h false buf = Ans r log -> runs globals ctl h [] (words ";" buf) r log).
Proof.
  intros W. assert (L : load_config knobs None (fun _ _ => 0) false (s_ "x=1") = Ans 0 []) by (vm_compute; reflexivity). specialize (W _ _ _ _ _ _ L). change (words ";" (s_ "x=1")) with [s_ "x=1"] in W.
  inversion W as [|? ? ? NP|? ? ? ? ? ? ? P A N|? ? ? n v r log r' log' P A N]; subst. unfold pair_of in P. change (words "=" (s_ "x=1")) with [s_ "x"; s_ "1"] in P. injection P as <- <-.
  destruct A as [(_ & -> & _)|(k & m & l & _ & _ & RS & _)]; [lia|]. destruct RS as [R|(_ & root & E & _)]; [|discriminate]. change (words "." (s_ "x")) with [s_ "x"] in R. unfold knobs in R.
  inversion R as [ns w m' F|ns w m' rest F T NE|ns w m' rest ns' m2 left F T CH R']; subst; apply first_cons in F; try discriminate; destruct F as [(_ & F)|(_ & F)]; try discriminate; exact (first_nil _ _ F).
Qed.
Print Assumptions C38_no_context_refuted.
(* A pair with doubled or outer separators is run as if it were well-formed. *)
Theorem C38_malformed_refuted : ~ (forall globals h q log, ~ In ";"%char q -> load_config globals None h true q = Ans 0 log -> q = [] \/ count_occ ascii_dec q "="%char = 1%nat).
Proof.
  intros W. assert (L : load_config knobs None (fun _ _ => 0) true (s_ "=heap.size==12=") = Ans 0 [CbCall 7 (AValues [VInt 12]) [zero_entry] None None]) by (vm_compute; reflexivity).
  assert (NI : ~ In ";"%char (s_ "=heap.size==12=")) by (vm_compute; intuition discriminate). destruct (W _ _ _ _ NI L) as [E|E]; discriminate.
Qed.
Print Assumptions C38_malformed_refuted.

(* ---- C66: values in a configuration ---- *)
(* The values a callback gets are those that the words of the text denote: numbers as in
   C, within the range of the field and never truncated; text that fits; anything else
   is rejected. *)
Theorem C66_config_values : forall ps s vs, parse_args ps s = Some vs <-> fields ps (words "," s) vs.
Proof. exact args_spec. Qed.
Print Assumptions C66_config_values.
Example C66_numbers : parse_args [PInt 4; PInt 8; PInt 1; PInt 4] (s_ "-2147483648,0x7fffffffffffffff,0377,+10") = Some [VInt (-2147483648); VInt (2 ^ 63 - 1); VInt 255; VInt 10] /\
  parse_args [PInt 4] (s_ "2147483648") = None /\ parse_args [PInt 1] (s_ "256") = None /\ parse_args [PInt 8] (s_ "99999999999999999999") = None /\ parse_args [PBool] (s_ "maybe") = None /\ parse_args [PStr 3] (s_ "abc") = None.
Proof. vm_compute. auto 10. Qed.
Example C66_ten : integer (s_ "10") 10.
Proof.
  exists [], [], (s_ "10"), 10. split; [reflexivity|]. split; [intros c []|]. split; [|right; auto]. apply (co_dec (s_ "10") [] 10).
  - change (numeral 10 (s_ "1" ++ ["0"%char]) (10 * 1 + 0)). apply nu_more; [apply (nu_one 10 "1"%char 1)| |]; try lia; left; cbv; split; try split; try discriminate; reflexivity.
  - discriminate.
  - intros (c & d & s' & E & _). discriminate.
Qed.
(* Text after a number and words after the last field are ignored, and so is all of a
   word after its first letter for a truth value. *)
Theorem C66_garbage_refuted : ~ (forall s vs, parse_args [PInt 4] s = Some vs -> forall c, In c s -> is_space c = true \/ In c (s_ "0123456789+-xXabcdefABCDEF")).
Proof. intros W. destruct (W (s_ "12 GB") [VInt 12] ltac:(vm_compute; reflexivity) "G"%char ltac:(vm_compute; auto 10)) as [E|E]; [discriminate|]. vm_compute in E. intuition discriminate. Qed.
Print Assumptions C66_garbage_refuted.
Theorem C66_extra_words_refuted : ~ (forall ps s vs, parse_args ps s = Some vs -> List.length (words "," s) = List.length ps).
Proof. intros W. specialize (W [PInt 4] (s_ "1,2") [VInt 1] ltac:(vm_compute; reflexivity)). discriminate. Qed.
Print Assumptions C66_extra_words_refuted.
(* The smallest number of a long long is refused. *)
Theorem C66_smallest_refuted : ~ (forall s i, integer s i -> - 2 ^ 63 <= i < 2 ^ 63 -> parse_args [PInt 8] s = Some [VInt i]).
Proof.
  intros W. assert (I : integer (s_ "-9223372036854775808") (- 2 ^ 63)).
  { assert (S : strtoll (s_ "-9223372036854775808") = Some (- 2 ^ 63, false)) by (vm_compute; reflexivity). apply strtoll_spec in S. destruct S as (v & I & E). unfold clamp in E.
    destruct (v <? - 2 ^ 63); [congruence|]. destruct (2 ^ 63 - 1 <? v); [congruence|]. assert (v = - 2 ^ 63) as -> by congruence. exact I. }
  specialize (W _ _ I ltac:(lia)). vm_compute in W. discriminate.
Qed.
Print Assumptions C66_smallest_refuted.
