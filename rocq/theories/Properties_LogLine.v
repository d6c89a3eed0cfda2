(* C68: a log line is complete or marked, and stays in its buffer. *)
From Verif Require Import Base Model_Ctl Model_Parse Model_LogLine Spec_LogLine Proof_LogLine.

(* For every message, of any length, with or without the text of an error: no byte is
   written outside the buffers, and the line says the whole message, or a beginning of it of
   at least 8190 characters and the mark.  What the buffer held before does not matter. *)
Theorem C68_line : forall c m date ids l func msg err, len date < LOG_HEADER -> len func <= LOG_MAX - 2 -> cstring func -> cstring msg -> (forall e b, err = Some (e, b) -> cstring e) -> heard c l ->
  exists t post, shows (message func msg err) (cut_error err) t post /\
    log_line c m date ids l func msg err = Line (match out c with Some o => o | None => Stderr end) (s_ "[" ++ header c date ids ++ level_name l ++ s_ " UMF] " ++ t ++ post ++ ["010"%char]) (rank (flush_lvl c) <=? rank l).
Proof. exact line_ok. Qed.
Print Assumptions C68_line.
(* Nothing is written for a level below the one set, or, but for fatal errors, while there
   is no output. *)
Theorem C68_quiet : forall c m date ids l func msg err, ~ heard c l -> log_line c m date ids l func msg err = Quiet.
Proof. exact line_quiet. Qed.
Print Assumptions C68_quiet.
(* A message that fits is never marked, unless the error itself was cut. *)
Theorem C68_unmarked : forall c m date ids l func msg err, len date < LOG_HEADER -> cstring func -> cstring msg -> (forall e b, err = Some (e, b) -> cstring e) -> heard c l -> len (message func msg err) < LOG_MAX -> cut_error err = false ->
  log_line c m date ids l func msg err = Line (match out c with Some o => o | None => Stderr end) (s_ "[" ++ header c date ids ++ level_name l ++ s_ " UMF] " ++ message func msg err ++ ["010"%char]) (rank (flush_lvl c) <=? rank l).
Proof.
  intros c m date ids l func msg err LD CF CM CE H L B. assert (LM : LOG_MAX = 8192) by reflexivity. assert (LF : len func <= LOG_MAX - 2).
  { assert (G : forall x, len (func ++ s_ ": " ++ msg ++ x) < LOG_MAX -> len func <= LOG_MAX - 2) by (intros x; rewrite !len_app; change (len (s_ ": ")) with 2; pose proof (len_nonneg msg); pose proof (len_nonneg x); lia). exact (G _ L). }
  destruct (line_ok c m date ids l func msg err LD LF CF CM CE H) as (t & post & S & E). rewrite E. rewrite B in S. destruct S as [(_ & -> & ->)|(G & _)]; [reflexivity|lia].
Qed.
Print Assumptions C68_unmarked.
Definition c_err : config := Config false true Info Error (Some Stderr).
Definition garbage : mem := fun _ => "x"%char.
Definition long (n : Z) : str := repeat "y"%char (Z.to_nat n).
Example C68_case : log_line c_err garbage (s_ "now ") (s_ "PID:1 ") Error (s_ "f") (s_ "no memory") (Some (s_ "Out of memory", false)) = Line Stderr (s_ "[PID:1 ERROR UMF] f: no memory: Out of memory" ++ ["010"%char]) true
  /\ log_line c_err garbage [] (s_ "P ") Info (s_ "f") (s_ "m") None = Line Stderr (s_ "[P INFO  UMF] f: m" ++ ["010"%char]) false
  /\ log_line c_err garbage [] [] Debug (s_ "f") (s_ "m") None = Quiet
  /\ log_line defaults garbage [] [] Fatal (s_ "f") (s_ "m") None = Line Stderr (s_ "[FATAL UMF] f: m" ++ ["010"%char]) true
  /\ heard c_err Error /\ ~ heard c_err Debug.
Proof. assert (A : heard c_err Error) by (split; [left; discriminate|vm_compute; discriminate]). assert (B : ~ heard c_err Debug) by (intros (_ & W); vm_compute in W; apply W; reflexivity). split; [vm_compute; reflexivity|]. split; [vm_compute; reflexivity|]. split; [vm_compute; reflexivity|]. split; [vm_compute; reflexivity|]. split; assumption. Qed.
Example C68_cut_case : (match log_line c_err garbage [] [] Error (s_ "f") (long 8180) (Some (s_ "Out of memory", false)) with Line _ s _ => len s | _ => 0 end) = 1 + 0 + 5 + 6 + 8191 + 14 + 1.
Proof. vm_cast_no_check (@eq_refl Z 8218). Qed.
(* Only a function name that fills the buffer by itself breaks it: every such one. *)
Theorem C68_name : forall c m date ids l func msg err, heard c l -> LOG_MAX - 2 < len func -> len func + len msg < 2 ^ 31 -> log_line c m date ids l func msg err = Over.
Proof. exact line_over. Qed.
Print Assumptions C68_name.
Theorem C68_name_refuted : ~ (forall c m date ids l func msg err, len date < LOG_HEADER -> cstring func -> cstring msg -> log_line c m date ids l func msg err <> Over).
Proof.
  intros W. refine (W c_err garbage [] [] Error (long 8191) [] None eq_refl _ _ _); [intros I; apply repeat_spec in I; discriminate|intros []|]. apply line_over; [split; [left; discriminate|vm_compute; discriminate]|vm_compute; reflexivity|vm_compute; reflexivity].
Qed.
Print Assumptions C68_name_refuted.
