(* Specification of the control interface: words of a string, paths in a tree. *)
From Verif Require Import Base Model_Ctl.

(* the pieces of a string between separators, and the words among them *)
Fixpoint split (sep : ascii) (s : str) : list str :=
  match s with
  | [] => [[]]
  | c :: s => match split sep s with p :: ps => if Ascii.eqb c sep then [] :: p :: ps else (c :: p) :: ps | [] => [] end
  end.
Definition words (sep : ascii) (s : str) : list str := filter (fun w => match w with [] => false | _ => true end) (split sep s).

(* a node that a word names: an indexed node if the word starts with a number, else a
   node of that name; the first such node of a list *)
Definition numeric (w : str) : Prop := exists spaces sign d rest, w = spaces ++ sign ++ d :: rest /\
  (forall c, In c spaces -> code c = 32 \/ 9 <= code c <= 13) /\ (sign = [] \/ sign = ["-"%char] \/ sign = ["+"%char]) /\ 48 <= code d <= 57.
Definition named (w : str) (n : node) : Prop := (numeric w /\ n_type n = Indexed) \/ n_name n = w.
Definition first_named (w : str) (ns : list node) (n : node) : Prop := exists pre post, ns = pre ++ n :: post /\ named w n /\ forall m, In m pre -> ~ named w m.
(* the node that a path leads to, and the words left over (only after a subtree) *)
Inductive reach : list node -> list str -> node -> list str -> Prop :=
| re_last : forall ns w n, first_named w ns n -> reach ns [w] n []
| re_subtree : forall ns w n rest, first_named w ns n -> n_type n = Subtree -> rest <> [] -> reach ns (w :: rest) n rest
| re_down : forall ns w n rest ns' m left, first_named w ns n -> n_type n <> Subtree -> n_children n = Some ns' -> reach ns' rest m left -> reach ns (w :: rest) m left.
(* the path goes on after a node without children *)
Inductive beyond : list node -> list str -> Prop :=
| be_here : forall ns w n rest, first_named w ns n -> n_type n <> Subtree -> n_children n = None -> rest <> [] -> beyond ns (w :: rest)
| be_down : forall ns w n rest ns', first_named w ns n -> n_type n <> Subtree -> n_children n = Some ns' -> beyond ns' rest -> beyond ns (w :: rest).

(* where a query leads: the global tree, else the other one *)
Definition resolved (globals : list node) (ctl : option (list node)) (name : str) (n : node) (left : list str) : Prop :=
  reach globals (words "." name) n left \/
  (~ (exists m l, reach globals (words "." name) m l) /\ exists root, ctl = Some root /\ reach root (words "." name) n left).
Definition strays (globals : list node) (ctl : option (list node)) (name : str) : Prop :=
  beyond globals (words "." name) \/ exists root, ctl = Some root /\ beyond root (words "." name).
(* the callback a node has for a type of query *)
Definition callback (n : node) (ty : qtype) (cb : Z) : Prop :=
  match n_type n with Leaf => n_cb n ty = Some cb | Subtree => n_cb n QSubtree = Some cb | _ => False end.

(* ---- values in text ---- *)
(* the value of a numeral, most significant digit first; digits of a base *)
Definition digit_is (c : ascii) (d : Z) : Prop :=
  (48 <= code c <= 57 /\ d = code c - 48) \/ (97 <= code c <= 122 /\ d = code c - 97 + 10) \/ (65 <= code c <= 90 /\ d = code c - 65 + 10).
Inductive numeral (base : Z) : str -> Z -> Prop :=
| nu_one : forall c d, digit_is c d -> d < base -> numeral base [c] d
| nu_more : forall cs v c d, numeral base cs v -> digit_is c d -> d < base -> numeral base (cs ++ [c]) (base * v + d).
(* a text that starts with a digit of the base *)
Definition goes_on (base : Z) (s : str) : Prop := exists c d s', s = c :: s' /\ digit_is c d /\ d < base.
(* C's unsigned constants: hexadecimal after 0x, octal after 0, else decimal; the
   longest one at the start of a text *)
Inductive constant : str -> Z -> Prop :=
| co_hex : forall x cs rest v, x = "x"%char \/ x = "X"%char -> numeral 16 cs v -> ~ goes_on 16 rest -> constant ("0"%char :: x :: cs ++ rest) v
| co_oct : forall cs rest v, numeral 8 cs v -> hd_error cs = Some "0"%char -> ~ goes_on 8 rest ->
    ~ (exists x rest', cs = ["0"%char] /\ rest = x :: rest' /\ (x = "x"%char \/ x = "X"%char) /\ goes_on 16 rest') -> constant (cs ++ rest) v
| co_dec : forall cs rest v, numeral 10 cs v -> hd_error cs <> Some "0"%char -> ~ goes_on 10 rest -> constant (cs ++ rest) v.
(* ... after blanks and a sign *)
Definition integer (s : str) (v : Z) : Prop := exists spaces sign body m, s = spaces ++ sign ++ body /\
  (forall c, In c spaces -> code c = 32 \/ 9 <= code c <= 13) /\ constant body m /\
  ((sign = ["-"%char] /\ v = - m) \/ ((sign = [] \/ sign = ["+"%char]) /\ v = m)).
(* the values that a field takes from a word *)
Definition field (p : parser) (w : str) (v : value) : Prop :=
  match p with
  | PBool => exists c w', w = c :: w' /\ ((In c (s_ "yY1") /\ v = VInt 1) \/ (In c (s_ "nN0") /\ v = VInt 0))
  | PInt size => exists i, integer w i /\ v = VInt i /\ ((size = 4 /\ - 2 ^ 31 <= i < 2 ^ 31) \/ (size = 8 /\ - 2 ^ 63 < i < 2 ^ 63) \/ (size = 1 /\ 0 <= i < 256))
  | PStr size => v = VStr w /\ Z.of_nat (List.length w) < size
  end.
Inductive fields : list parser -> list str -> list value -> Prop :=
| fi_end : forall rest, fields [] rest []
| fi_next : forall p ps w ws v vs, field p w v -> fields ps ws vs -> fields (p :: ps) (w :: ws) (v :: vs).

(* the argument a callback gets: what the program gives, or the values read from the
   text; writing needs an argument, reading as well *)
Definition argument (n : node) (ty : qtype) (a a' : arg) : Prop :=
  match n_type n, ty with
  | Leaf, QWrite => match a with APtr None => False | AText s => exists vs, fields (n_arg n) (words "," s) vs /\ a' = AValues vs | _ => a' = a end
  | Leaf, QRead => a <> APtr None /\ a' = a
  | _, _ => a' = a
  end.
(* a subtree is told the type of the query and the words left over *)
Definition extra_ok (n : node) (ty : qtype) (left : list str) (k : cbcall) : Prop :=
  n_type n = Subtree -> c_type k = Some ty /\ exists e, c_extra k = Some e /\ (left <> [] -> words "." e = left).
(* the outcome of a query: no callback and an error, or one call of the right callback
   and its result *)
Definition asks (globals : list node) (ctl : option (list node)) (h : handlers) (past : list cbcall) (a : arg) (name : str) (ty : qtype) (r : Z) (log : list cbcall) : Prop :=
  (log = [] /\ r = -1 /\ ~ exists n l cb a', resolved globals ctl name n l /\ callback n ty cb /\ argument n ty a a') \/
  exists k n l, log = [k] /\ r = h past k /\ resolved globals ctl name n l /\ callback n ty (c_id k) /\ argument n ty a (c_arg k) /\ extra_ok n ty l k.

(* configuration: name=value pairs; what running them does *)
Definition pair_of (q : str) (n v : str) : Prop := words "=" q = [n; v].
Inductive runs (globals : list node) (ctl : option (list node)) (h : handlers) : list cbcall -> list str -> Z -> list cbcall -> Prop :=
| ru_end : forall past, runs globals ctl h past [] 0 past
| ru_bad : forall past q qs, ~ (exists n v, pair_of q n v) -> runs globals ctl h past (q :: qs) (-1) past
| ru_fail : forall past q qs n v r log, pair_of q n v -> asks globals ctl h past (AText v) n QWrite r log -> r < 0 -> runs globals ctl h past (q :: qs) (-1) (past ++ log)
| ru_next : forall past q qs n v r log r' log', pair_of q n v -> asks globals ctl h past (AText v) n QWrite r log -> 0 <= r -> runs globals ctl h (past ++ log) qs r' log' ->
    runs globals ctl h past (q :: qs) r' log'.

(* the queries an OS provider serves, and its callbacks for them *)
Definition serves (ty : qtype) (path : list str) (cb : Z) : Prop :=
  (path = [s_ "params"; s_ "ipc_enabled"] /\ ty = QRead /\ cb = 10) \/ (path = [s_ "stats"; s_ "allocated_memory"] /\ ty = QRead /\ cb = 11) \/
  (path = [s_ "stats"; s_ "peak_memory"] /\ ty = QRead /\ cb = 12) \/ (path = [s_ "stats"; s_ "reset"] /\ ty = QRunnable /\ cb = 13).
Definition handle_path (name : str) (path : list str) : Prop := words "." name = s_ "umf" :: s_ "provider" :: s_ "by_handle" :: path.

(* the text of a configuration file: its lines up to a '#', without blanks *)
Definition line_text (l : str) : str := filter (fun c => negb (is_space c)) (hd [] (split "#" l)).
Definition file_text (s : str) : str := List.concat (map line_text (split (ascii_of_nat 10) s)).
