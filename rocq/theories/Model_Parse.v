(* Model of option strings: src/utils/utils_common.c (55-89), src/utils/utils_log.c
   (248-337) and src/utils/utils_posix_common.c (269-291).  A string is the list of its
   characters; the terminating NUL is the end of the list. *)
From Verif Require Import Base Model_Ctl.

(* strstr: the offset of the first occurrence *)
Fixpoint prefix (o v : str) : bool := match o, v with [], _ => true | x :: o, y :: v => aeqb x y && prefix o v | _, _ => false end.
Fixpoint strstr (v o : str) : option nat := if prefix o v then Some O else match v with [] => None | _ :: v => match strstr v o with Some k => Some (S k) | None => None end end.
(* utils_common.c:59-89; [k - 1] is the character before the hit; the result is the text
   after the option, or after the ',' if an argument is wanted *)
Definition before (v : str) (k : nat) : option ascii := match k with O => None | S k => nth_error v k end.
Definition parse_var (v o : str) (arg : bool) : option str :=
  match strstr v o with
  | None => None
  | Some k =>
      if match before v k with Some c => aeqb c ";" | None => true end then
        let rest := skipn (k + List.length o) v in
        if arg then match rest with c :: a => if aeqb c "," then Some a else None | [] => None end
        else match rest with c :: _ => if aeqb c ";" then Some rest else None | [] => Some rest end
      else None
  end.
Definition has (v : str) (o : string) : bool := match parse_var v (s_ o) false with Some _ => true | None => false end.

(* utils_log.c:64-72 and 246-337 for UMF_LOG set to [v]; [opens]: whether fopen of a path
   succeeds.  The file is copied to a buffer of 257 bytes: LCrash if that is too small. *)
Inductive level := Debug | Info | Warning | Error | Fatal.
Inductive output := Stdout | Stderr | File (path : str).
Record config := Config { timestamp : bool; pid : bool; lvl : level; flush_lvl : level; out : option output }.
Inductive log := LCrash | Log (c : config).
Definition defaults : config := Config false false Error Error None.
Definition first_level (v : str) (key : string) (d : level) : level :=
  if has v (key ++ "debug") then Debug else if has v (key ++ "info") then Info else if has v (key ++ "warning") then Warning
  else if has v (key ++ "error") then Error else if has v (key ++ "fatal") then Fatal else d.
Definition rest_init (v : str) (o : output) : log :=
  Log (Config (if has v "timestamp:yes" then true else if has v "timestamp:no" then false else timestamp defaults)
              (if has v "pid:yes" then true else if has v "pid:no" then false else pid defaults)
              (first_level v "level:" (lvl defaults)) (first_level v "flush:" (flush_lvl defaults)) (Some o)).
Definition log_init (opens : str -> bool) (v : str) : log :=
  if has v "output:stdout" then rest_init v Stdout
  else if has v "output:stderr" then rest_init v Stderr
  else match parse_var v (s_ "output:file") true with
       | None => Log defaults
       | Some a =>
           let len := match strstr a (s_ ";") with Some k => k | None => List.length a end in
           if (256 <? len)%nat then Log defaults
           else if (257 <=? len)%nat then LCrash
           else let file := firstn len a in if opens file then rest_init v (File file) else Log defaults
       end.

(* utils_common.c:55-58 (and utils_env_var_has_str) for a variable set to [v] *)
Definition env_get (v : str) (o : str) : option str := match strstr v o with Some k => Some (skipn k v) | None => None end.
Definition env_has (v o : str) : bool := match env_get v o with Some _ => true | None => false end.
(* utils_posix_common.c:271-291 with proxy_lib.c:134-146; atol is strtol with base 10.
   None: the program is ended. *)
Definition size_threshold (v : str) : option Z :=
  match env_get v (s_ "size.threshold=") with
  | None => Some 0
  | Some t =>
      let t := skipn 15 t in
      match t with
      | c :: _ => if (48 <=? code c) && (code c <=? 57) then Some (Z.min (digits 10 t 0) (2 ^ 63 - 1)) else None
      | [] => None
      end
  end.
