(* C43: option strings.  C67: the logger's configuration. *)
From Verif Require Import Base Model_Ctl Spec_Ctl Proof_Ctl Model_Parse Spec_Parse Proof_Parse.

(* An option is found exactly when it is an element and no earlier element contains it. *)
Theorem C43_found_partial : forall o v, plain o -> (exists r, parse_var v o false = Some r) <-> exists pre post, elements v = pre ++ o :: post /\ forall x, In x pre -> ~ contains x o.
Proof. exact parse_flag. Qed.
Print Assumptions C43_found_partial.
(* So what is found is listed; and what is listed is found unless another element contains
   it. *)
Theorem C43_found_listed : forall o v r, plain o -> parse_var v o false = Some r -> listed v o.
Proof. intros o v r P E. destruct (proj1 (parse_flag o v P) (ex_intro _ r E)) as (pre & post & S & _). unfold listed. rewrite S. apply in_app_iff. right. left. reflexivity. Qed.
Print Assumptions C43_found_listed.
Theorem C43_listed_found : forall o v, plain o -> (forall e, In e (elements v) -> contains e o -> e = o) -> (exists r, parse_var v o false = Some r) <-> listed v o.
Proof. exact parse_exact. Qed.
Print Assumptions C43_listed_found.
(* With an argument: the first element that contains the option decides, and the text given
   back starts with the argument and goes on with the next element, if any. *)
Theorem C43_argument_partial : forall o v a, plain o ->
  (parse_var v o true = Some a -> exists pre el post t, elements v = pre ++ (o ++ ","%char :: el) :: post /\ (forall x, In x pre -> ~ contains x o) /\ a = el ++ t /\ (t = [] \/ exists r, t = ";"%char :: r)) /\
  (forall pre el post, elements v = pre ++ (o ++ ","%char :: el) :: post -> (forall x, In x pre -> ~ contains x o) -> exists t, parse_var v o true = Some (el ++ t) /\ (t = [] \/ exists r, t = ";"%char :: r)).
Proof. intros o v a P. split; [exact (parse_arg o v a P)|intros pre el post; exact (parse_arg_conv o v pre el post P)]. Qed.
Print Assumptions C43_argument_partial.
Theorem C43_argument_given : forall o v a, plain o -> (forall e, In e (elements v) -> contains e o -> e = o ++ ","%char :: a) ->
  (exists t, parse_var v o true = Some (a ++ t) /\ (t = [] \/ exists r, t = ";"%char :: r)) <-> given v o a.
Proof. exact parse_arg_exact. Qed.
Print Assumptions C43_argument_given.
Example C43_case : map (has (s_ "output:stderr;level:info;pid:yes")) ["output:stderr"; "level:info"; "pid:yes"; "pid:no"; "level"]%string = [true; true; true; false; false]
  /\ elements (s_ "output:stderr;level:info;pid:yes") = [s_ "output:stderr"; s_ "level:info"; s_ "pid:yes"]
  /\ parse_var (s_ "pid:no;output:file,/tmp/log;level:info") (s_ "output:file") true = Some (s_ "/tmp/log;level:info").
Proof. vm_compute. auto. Qed.
(* An option that is listed is missed when an earlier element contains it. *)
Theorem C43_listed_refuted : ~ (forall o v, plain o -> listed v o -> exists r, parse_var v o false = Some r).
Proof. intros W. destruct (W (s_ "pid:yes") (s_ "output:file,/tmp/pid:yes.log;pid:yes")) as (r & E); [split; [discriminate|vm_compute; intuition discriminate]|right; left; reflexivity|]. vm_compute in E. discriminate. Qed.
Print Assumptions C43_listed_refuted.
Theorem C43_given_refuted : ~ (forall o v a, plain o -> given v o a -> exists r, parse_var v o true = Some r).
Proof. intros W. destruct (W (s_ "output:file") (s_ "output:file;output:file,log") (s_ "log")) as (r & E); [split; [discriminate|vm_compute; intuition discriminate]|right; left; reflexivity|]. vm_compute in E. discriminate. Qed.
Print Assumptions C43_given_refuted.

(* The options of the proxy library are looked for anywhere in the text. *)
Theorem C43_anywhere : forall v o, env_has v o = true <-> contains v o.
Proof. intros v o. unfold env_has, env_get. rewrite strstr_some. destruct (strstr v o) as [k|]; split; [eauto|reflexivity|discriminate|intros (k & E); discriminate]. Qed.
Print Assumptions C43_anywhere.
Theorem C43_anywhere_refuted : ~ (forall v o, env_has v o = true <-> listed v o).
Proof. intros W. assert (L : listed (s_ "page.disposition=shared-fdx") (s_ "page.disposition=shared-fd")) by (apply W; vm_compute; reflexivity). vm_compute in L. destruct L as [L|[]]. discriminate. Qed.
Print Assumptions C43_anywhere_refuted.
(* The threshold is the number after the first occurrence of its name, up to 2^63 - 1. *)
Theorem C43_threshold_partial : forall pre ds rest n, numeral 10 ds n -> ~ goes_on 10 rest -> (forall a b, pre ++ s_ "size.threshold=" ++ ds ++ rest = a ++ s_ "size.threshold=" ++ b -> (List.length pre <= List.length a)%nat) ->
  size_threshold (pre ++ s_ "size.threshold=" ++ ds ++ rest) = Some (Z.min n (2 ^ 63 - 1)).
Proof. exact threshold_spec. Qed.
Print Assumptions C43_threshold_partial.
Theorem C43_no_threshold : forall v, ~ contains v (s_ "size.threshold=") -> size_threshold v = Some 0.
Proof. exact threshold_none. Qed.
Print Assumptions C43_no_threshold.
Example C43_threshold_case : map size_threshold [s_ "page.disposition=shared-fd;size.threshold=4096"; s_ "size.threshold=64;x"; s_ "x"; s_ "size.threshold=-1"; s_ "size.threshold=99999999999999999999"] = [Some 4096; Some 64; Some 0; None; Some (2 ^ 63 - 1)].
Proof. vm_compute. reflexivity. Qed.
Theorem C43_threshold_refuted : ~ (forall v n, size_threshold v = Some n -> n <> 0 -> exists ds, numeral 10 ds n /\ listed v (s_ "size.threshold=" ++ ds)).
Proof.
  intros W. destruct (W (s_ "xsize.threshold=5") 5) as (ds & _ & L); [vm_compute; reflexivity|discriminate|]. assert (E : elements (s_ "xsize.threshold=5") = [s_ "xsize.threshold=5"]) by (vm_compute; reflexivity). unfold listed in L. rewrite E in L. destruct L as [L|[]]. cbn [s_ app] in L. discriminate.
Qed.
Print Assumptions C43_threshold_refuted.

(* The logger: if no element hides a word that the logger knows, the log goes where the
   text says, and every setting is the one listed, or its default. *)
Theorem C67_settings_partial : forall opens v, clean v -> exists c, log_init opens v = Log c /\ goes_to opens v (out c) /\
  (out c = None -> c = defaults) /\
  (out c <> None -> (timestamp c = true <-> listed v (s_ "timestamp:yes")) /\ (pid c = true <-> listed v (s_ "pid:yes")) /\ choose v (levels "level:") Error (lvl c) /\ choose v (levels "flush:") Error (flush_lvl c)).
Proof. exact log_init_spec. Qed.
Print Assumptions C67_settings_partial.
(* A text of known words is one; so the order and number of the words is free. *)
Theorem C67_vocabulary : forall v, (forall e, In e (elements v) -> In e words_known) -> clean v.
Proof. exact known_clean. Qed.
Print Assumptions C67_vocabulary.
(* For any text at all, the copy of the file name fits its buffer. *)
Theorem C67_buffer : forall opens v, log_init opens v <> LCrash.
Proof. exact log_init_safe. Qed.
Print Assumptions C67_buffer.
Example C67_case : clean (s_ "level:warning;output:file,/tmp/log;pid:yes;level:fatal") /\
  log_init (fun _ => true) (s_ "level:warning;output:file,/tmp/log;pid:yes;level:fatal") = Log (Config false true Warning Error (Some (File (s_ "/tmp/log")))) /\
  log_init (fun _ => false) (s_ "level:warning;output:file,/tmp/log;pid:yes") = Log defaults /\
  log_init (fun _ => false) (s_ "level:info;output:stderr;flush:debug;timestamp:yes") = Log (Config true false Info Debug (Some Stderr)).
Proof. split; [apply clean_check; vm_compute; reflexivity|]. vm_compute. auto. Qed.
(* A word inside a file name hides the setting. *)
Theorem C67_settings_refuted : ~ (forall opens v c, log_init opens v = Log c -> out c <> None -> listed v (s_ "pid:yes") -> pid c = true).
Proof. intros W. specialize (W (fun _ => true) (s_ "output:file,/tmp/pid:yes.log;pid:yes") (Config false false Error Error (Some (File (s_ "/tmp/pid:yes.log")))) ltac:(vm_compute; reflexivity) ltac:(discriminate) ltac:(right; left; reflexivity)). discriminate. Qed.
Print Assumptions C67_settings_refuted.
(* Nor does the last word of a kind win: "no" after or before "yes" changes nothing. *)
Theorem C67_order_refuted : ~ (forall opens v c, clean v -> log_init opens v = Log c -> listed v (s_ "pid:no") -> pid c = false).
Proof. intros W. specialize (W (fun _ => true) (s_ "output:stderr;pid:yes;pid:no") (Config false true Error Error (Some Stderr)) ltac:(apply clean_check; vm_compute; reflexivity) ltac:(vm_compute; reflexivity) ltac:(do 2 right; left; reflexivity)). discriminate. Qed.
Print Assumptions C67_order_refuted.
