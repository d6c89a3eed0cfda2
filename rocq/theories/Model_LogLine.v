(* Model of one log line: src/utils/utils_log.c (59-62, 75-91, 99-226) on Linux.
   A C string is the list of its characters.  [func], the formatted message, the text of
   the error, the date and the process part of the header are inputs: what the printf
   family would print with room enough.  The buffer of 8192 bytes is a memory with checked
   bounds; a write or read outside it gives None.
   Simplified: the header (256 bytes) is built from strings, not in memory. *)
From Verif Require Import Base Model_Ctl Model_Parse.

Definition LOG_MAX : Z := 8192.
Definition LOG_HEADER : Z := 256.
Definition len (s : str) : Z := Z.of_nat (List.length s).
Definition take (n : Z) (s : str) : str := firstn (Z.to_nat n) s.
Definition NUL : ascii := Ascii.zero.
Definition mem := Z -> ascii.
Definition at_ (s : str) (i : Z) : ascii := nth (Z.to_nat i) s NUL.
(* bytes written at an offset of the buffer *)
Definition put (m : mem) (off : Z) (s : str) : option mem :=
  if len s =? 0 then Some m
  else if (0 <=? off) && (off + len s <=? LOG_MAX) then Some (fun i => if (off <=? i) && (i <? off + len s) then at_ s (i - off) else m i) else None.
(* the C string at an offset; None if it runs out of the buffer *)
Fixpoint text_from (fuel : nat) (m : mem) (i : Z) : option str :=
  match fuel with
  | O => None
  | S f => if (0 <=? i) && (i <? LOG_MAX) then if aeqb (m i) NUL then Some [] else match text_from f m (i + 1) with Some s => Some (m i :: s) | None => None end else None
  end.
Definition text_at (m : mem) (i : Z) : option str := text_from (Z.to_nat LOG_MAX) m i.
(* an int given as a size_t *)
Definition size_of_int (n : Z) : Z := if n <? 0 then n + 2 ^ 64 else n.
(* snprintf: at most size - 1 characters and a NUL; nothing for size 0; the result is the
   length of the whole text *)
Definition print (m : mem) (off : Z) (size : Z) (s : str) : option mem :=
  let n := size_of_int size in if n =? 0 then Some m else put m off (take (n - 1) s ++ [NUL]).
(* strncat with a two character text and strncpy *)
Definition strncat (m : mem) (off : Z) (s : str) (size : Z) : option mem :=
  match text_at m off with None => None | Some t => put m (off + len t) (take (size_of_int size) s ++ [NUL]) end.
Definition strncpy (m : mem) (off : Z) (s : str) (size : Z) : option mem :=
  let n := size_of_int size in put m off (take n s ++ repeat NUL (Z.to_nat (n - len s))).

Definition truncated : str := s_ "[truncated...]".
(* 118-178: the buffer, and what is put after it.  [err]: the text of errno and whether
   strerror_r had to cut it, for the functions that add it. *)
Definition body (m : mem) (func msg : str) (err : option (str * bool)) : option (mem * str) :=
  match print m 0 LOG_MAX (func ++ s_ ": ") with
  | None => None
  | Some m =>
      let pos := len func + 2 in let size := LOG_MAX - (len func + 2) in
      match print m pos size msg with
      | None => None
      | Some m =>
          let pos := pos + len msg in let size := size - len msg in
          match err with
          | None => Some (m, if size <=? 0 then truncated else [])
          | Some (e, cut) =>
              if 2 <? size then
                match strncat m pos (s_ ": ") size with
                | None => None
                | Some m =>
                    let pos := pos + 2 in let size := size - 2 in
                    match strncpy m pos e size with
                    | None => None
                    | Some m =>
                        let size := size - len e in
                        match (if size <=? 0 then put m (LOG_MAX - 1) [NUL] else Some m) with
                        | None => None
                        | Some m => Some (m, if size <=? 0 then truncated else if cut then truncated else [])
                        end
                    end
                end
              else Some (m, truncated)
          end
      end
  end.
(* 75-91 and 214-218: the name in five columns *)
Definition level_name (l : level) : str := s_ match l with Debug => "DEBUG" | Info => "INFO " | Warning => "WARN " | Error => "ERROR" | Fatal => "FATAL" end.
(* 185-212; [date]: what strftime puts, [ids]: the process and the thread *)
Definition header (c : config) (date ids : str) : str :=
  let d := if timestamp c then date else [] in d ++ (if pid c then take (LOG_HEADER - len d - 1) ids else []).
Definition rank (l : level) : Z := match l with Debug => 0 | Info => 1 | Warning => 2 | Error => 3 | Fatal => 4 end.
(* 102-108 and 214-226: the output, the line and whether the output is flushed; the line
   has 8192 + 512 bytes *)
Inductive logged := Over | Quiet | Line (o : output) (s : str) (flushed : bool).
Definition log_line (c : config) (m : mem) (date ids : str) (l : level) (func msg : str) (err : option (str * bool)) : logged :=
  match out c, l with
  | None, Debug | None, Info | None, Warning | None, Error => Quiet
  | _, _ =>
      if rank l <? rank (lvl c) then Quiet
      else match body m func msg err with
           | None => Over
           | Some (m, post) =>
               match text_at m 0 with
               | None => Over
               | Some t => Line (match out c with Some o => o | None => Stderr end)
                             (take (LOG_MAX + LOG_HEADER * 2 - 1) (s_ "[" ++ header c date ids ++ level_name l ++ s_ " UMF] " ++ t ++ post ++ ["010"%char])) (rank (flush_lvl c) <=? rank l)
               end
           end
  end.
