(* Proofs about option strings. *)
From Verif Require Import Base Model_Ctl Spec_Ctl Proof_Ctl Model_Parse Spec_Parse.

Lemma prefix_iff : forall o v, prefix o v = true <-> exists b, v = o ++ b.
Proof.
  induction o as [|x o IH]; intros v; cbn [prefix]; [split; [intros _; exists v; reflexivity|reflexivity]|]. destruct v as [|y v]; [split; [discriminate|intros (b & E); discriminate]|]. rewrite andb_true_iff, IH, aeqb_eq. split.
  - intros (-> & b & ->). exists b. reflexivity.
  - intros (b & E). injection E as -> ->. split; [reflexivity|eauto].
Qed.
Lemma contains_cons : forall c e o, contains (c :: e) o <-> (exists b, c :: e = o ++ b) \/ contains e o.
Proof.
  intros c e o. split.
  - intros (a & b & E). destruct a as [|x a]; [left; exists b; exact E|]. cbn in E. injection E as -> E. right. exists a, b. exact E.
  - intros [(b & E)|(a & b & ->)]; [exists [], b; exact E|exists (c :: a), b; reflexivity].
Qed.
Lemma strstr_some : forall v o, contains v o <-> exists k, strstr v o = Some k.
Proof.
  intros v o. induction v as [|c v IH].
  - cbn [strstr]. destruct (prefix o []) eqn:P; [split; [eauto|intros _; apply prefix_iff in P; destruct P as (b & E); exists [], b; exact E]|]. split; [|intros (k & E); discriminate]. intros (a & b & E). symmetry in E. apply app_eq_nil in E. destruct E as (_ & E). apply app_eq_nil in E. destruct E as (-> & _). discriminate.
  - rewrite contains_cons, IH. cbn [strstr]. destruct (prefix o (c :: v)) eqn:P; [split; [eauto|intros _; left; apply prefix_iff; exact P]|]. destruct (strstr v o) as [k|]; split; intros W; [eauto|right; eauto| |destruct W; discriminate]. destruct W as [W|(k & W)]; [apply prefix_iff in W; congruence|discriminate].
Qed.
(* where the first hit is, in a string that starts with an element *)
Lemma in_prefix : forall e t o, ~ In ";"%char o -> ~ In ";"%char e -> o <> [] -> (t = [] \/ exists r, t = ";"%char :: r) -> prefix o (e ++ t) = prefix o e.
Proof.
  intros e t o NO NE O T. destruct (prefix o e) eqn:P.
  - apply prefix_iff in P. destruct P as (b & ->). apply prefix_iff. exists (b ++ t). rewrite app_assoc. reflexivity.
  - destruct (prefix o (e ++ t)) eqn:Q; [|reflexivity]. exfalso. apply prefix_iff in Q. destruct Q as (b & E). assert (W : exists x, o = e ++ x /\ t = x ++ b \/ e = o ++ x).
    { clear - E. revert o E. induction e as [|c e IH]; intros o E; [exists o; left; auto|]. destruct o as [|d o]; [exists (c :: e); right; reflexivity|]. cbn in E. injection E as -> E. destruct (IH o E) as (x & [(-> & ->)| ->]); exists x; [left; auto|right; reflexivity]. }
    destruct W as (x & [(W1 & W2)|W]); [|subst e; rewrite (proj2 (prefix_iff o (o ++ x))) in P by eauto; discriminate].
    destruct x as [|y x]; [rewrite app_nil_r in W1; subst o; rewrite (proj2 (prefix_iff e e)) in P by (exists []; rewrite app_nil_r; reflexivity); discriminate|]. destruct T as [->|(r & ->)]; [discriminate|]. cbn in W2. injection W2 as <- _. apply NO. rewrite W1. apply in_app_iff. right. left. reflexivity.
Qed.
Lemma strstr_in : forall e t o k, ~ In ";"%char o -> ~ In ";"%char e -> o <> [] -> (t = [] \/ exists r, t = ";"%char :: r) -> strstr e o = Some k -> strstr (e ++ t) o = Some k.
Proof.
  induction e as [|c e IH]; intros t o k NO NE O T E.
  - cbn [strstr] in E. destruct o; [contradiction|]. discriminate.
  - pose proof (in_prefix (c :: e) t o NO NE O T) as P. cbn [app] in P |- *. cbn [strstr] in E |- *. rewrite P. destruct (prefix o (c :: e)); [exact E|]. destruct (strstr e o) as [k'|] eqn:S; [|discriminate]. rewrite (IH t o k' NO ltac:(intros W; apply NE; right; exact W) O T S). exact E.
Qed.
Lemma strstr_out : forall e r o, ~ In ";"%char o -> ~ In ";"%char e -> o <> [] -> ~ contains e o -> strstr (e ++ ";"%char :: r) o = match strstr r o with Some k => Some (List.length e + 1 + k)%nat | None => None end.
Proof.
  induction e as [|c e IH]; intros r o NO NE O NC.
  - cbn [app strstr List.length]. destruct (prefix o (";"%char :: r)) eqn:P; [|destruct (strstr r o); reflexivity]. apply prefix_iff in P. destruct P as (b & E). destruct o as [|x o]; [contradiction|]. cbn in E. injection E as <- _. exfalso. apply NO. left. reflexivity.
  - pose proof (in_prefix (c :: e) (";"%char :: r) o NO NE O (or_intror (ex_intro _ r eq_refl))) as P. cbn [app] in P |- *. cbn [strstr List.length]. rewrite P. destruct (prefix o (c :: e)) eqn:Q; [exfalso; apply NC; apply contains_cons; left; apply prefix_iff; exact Q|]. rewrite IH; [destruct (strstr r o); reflexivity|exact NO|intros W; apply NE; right; exact W|exact O|intros W; apply NC; apply contains_cons; right; exact W].
Qed.
Lemma strstr_zero : forall e o k, strstr e o = Some k -> (k = O /\ prefix o e = true) \/ (exists j, k = S j /\ prefix o e = false).
Proof. intros [|c e] o k E; cbn [strstr] in E; destruct (prefix o _) eqn:P; try discriminate; [injection E as <-; auto|injection E as <-; auto|]. destruct (strstr e o); [|discriminate]. injection E as <-. right. eauto. Qed.
Lemma strstr_bound : forall e o k, o <> [] -> strstr e o = Some k -> (k < List.length e)%nat.
Proof. induction e as [|c e IH]; intros o k O E; cbn [strstr] in E; [destruct o; [contradiction|discriminate]|]. cbn [List.length]. destruct (prefix o (c :: e)); [injection E as <-; lia|]. destruct (strstr e o) as [j|] eqn:S; [|discriminate]. injection E as <-. specialize (IH o j O S). lia. Qed.
Lemma parse_in : forall e t o arg, plain o -> ~ In ";"%char e -> (t = [] \/ exists r, t = ";"%char :: r) -> contains e o ->
  parse_var (e ++ t) o arg = if prefix o e then (let rest := skipn (List.length o) (e ++ t) in if arg then match rest with c :: a => if aeqb c "," then Some a else None | [] => None end else match rest with c :: _ => if aeqb c ";" then Some rest else None | [] => Some rest end) else None.
Proof.
  intros e t o arg (O & NO) NE T C. apply strstr_some in C. destruct C as (k & K). unfold parse_var. rewrite (strstr_in e t o k NO NE O T K). destruct (strstr_zero e o k K) as [(-> & ->)|(j & -> & ->)]; [reflexivity|]. cbn [before]. pose proof (strstr_bound _ _ _ O K) as B. rewrite nth_error_app1 by lia. destruct (nth_error e j) as [c|] eqn:N; [|apply nth_error_None in N; lia].
  destruct (aeqb c ";") eqn:A; [|reflexivity]. exfalso. apply aeqb_eq in A. subst c. apply NE. exact (nth_error_In _ _ N).
Qed.
Lemma parse_out : forall e r o arg, plain o -> ~ In ";"%char e -> ~ contains e o -> parse_var (e ++ ";"%char :: r) o arg = parse_var r o arg.
Proof.
  intros e r o arg (O & NO) NE NC. unfold parse_var. rewrite (strstr_out e r o NO NE O NC). destruct (strstr r o) as [k|]; [|reflexivity].
  assert (B : (match before (e ++ ";"%char :: r) (List.length e + 1 + k) with Some c => aeqb c ";" | None => true end) = match before r k with Some c => aeqb c ";" | None => true end).
  { replace (List.length e + 1 + k)%nat with (S (List.length e + k)) by lia. cbn [before]. rewrite nth_error_app2 by (clear; lia). replace (List.length e + k - List.length e)%nat with k by (clear; lia). destruct k as [|k]; reflexivity. }
  rewrite B. replace (skipn (List.length e + 1 + k + List.length o) (e ++ ";"%char :: r)) with (skipn (k + List.length o) r); [reflexivity|].
  rewrite skipn_app. replace (List.length e + 1 + k + List.length o - List.length e)%nat with (S (k + List.length o)) by lia. rewrite (skipn_all2 e) by lia. reflexivity.
Qed.
Lemma elements_none : forall e, ~ In ";"%char e -> elements e = [e].
Proof. intros e N. unfold elements. induction e as [|c e IH]; [reflexivity|]. cbn [split]. rewrite IH by (intros W; apply N; right; exact W). replace (Ascii.eqb c ";") with false; [reflexivity|]. symmetry. apply Ascii.eqb_neq. intros ->. apply N. left. reflexivity. Qed.
Lemma elements_cons : forall e r, ~ In ";"%char e -> elements (e ++ ";"%char :: r) = e :: elements r.
Proof.
  intros e r N. unfold elements. induction e as [|c e IH]; cbn [app split].
  - destruct (split_cons ";" r) as (p & ps & E). rewrite E, Ascii.eqb_refl. reflexivity.
  - rewrite IH by (intros W; apply N; right; exact W). replace (Ascii.eqb c ";") with false; [reflexivity|]. symmetry. apply Ascii.eqb_neq. intros ->. apply N. left. reflexivity.
Qed.
Lemma elements_ind : forall P : str -> Prop, (forall e, ~ In ";"%char e -> P e) -> (forall e r, ~ In ";"%char e -> P r -> P (e ++ ";"%char :: r)) -> forall v, P v.
Proof.
  intros P P1 P2 v. assert (W : forall v, exists e t, v = e ++ t /\ ~ In ";"%char e /\ (t = [] \/ exists r, t = ";"%char :: r)).
  { clear. induction v as [|c v (e & t & -> & N & T)]; [exists [], []; auto|]. destruct (Ascii.eqb_spec c ";") as [->|NC]; [exists [], (";"%char :: e ++ t); split; [reflexivity|]; split; [intros []|right; eauto]|]. exists (c :: e), t. split; [reflexivity|]. split; [intros [Q|Q]; [exact (NC Q)|exact (N Q)]|exact T]. }
  remember (List.length v) as n eqn:L. assert (LE : (List.length v <= n)%nat) by lia. clear L. revert v LE. induction n as [|n IH]; intros v LE; destruct (W v) as (e & t & -> & N & [->|(r & ->)]); rewrite ?app_nil_r; try (apply P1; exact N).
  - rewrite app_length in LE. cbn in LE. lia.
  - apply P2; [exact N|]. apply IH. rewrite app_length in LE. cbn [List.length] in LE. lia.
Qed.
Lemma contains_self : forall o b, contains (o ++ b) o.
Proof. intros o b. exists [], b. reflexivity. Qed.
Lemma skipn_pre : forall (a b : str), skipn (List.length a) (a ++ b) = b.
Proof. intros a b. rewrite skipn_app, skipn_all, Nat.sub_diag. reflexivity. Qed.
Lemma contains_dec : forall e o, {contains e o} + {~ contains e o}.
Proof. intros e o. destruct (strstr e o) as [k|] eqn:S; [left; apply strstr_some; eauto|right; rewrite strstr_some; intros (k & E); congruence]. Qed.
Lemma parse_flag : forall o v, plain o -> (exists r, parse_var v o false = Some r) <-> exists pre post, elements v = pre ++ o :: post /\ forall x, In x pre -> ~ contains x o.
Proof.
  intros o v PO. pose proof PO as (O & NO). induction v as [e NE|e r NE IH] using elements_ind.
  - rewrite (elements_none e NE). split.
    + intros (r & E). assert (C : contains e o) by (apply strstr_some; unfold parse_var in E; destruct (strstr e o); [eauto|discriminate]). pose proof (parse_in e [] o false PO NE (or_introl eq_refl) C) as W. rewrite app_nil_r in W. rewrite W in E. destruct (prefix o e) eqn:P; [|discriminate]. apply prefix_iff in P. destruct P as (b & ->). rewrite skipn_pre in E. destruct b as [|c b]; [exists [], []; rewrite app_nil_r; split; [reflexivity|intros x []]|]. cbn in E. destruct (aeqb c ";") eqn:A; [|discriminate]. apply aeqb_eq in A. subst c. exfalso. apply NE. apply in_app_iff. right. left. reflexivity.
    + intros (pre & post & E & _). destruct pre as [|p pre]; [|destruct pre; discriminate]. cbn [app] in E; injection E as E1 _; subst e. pose proof (parse_in o [] o false PO NE (or_introl eq_refl) ltac:(rewrite <- (app_nil_r o) at 1; apply contains_self)) as W. rewrite app_nil_r in W. rewrite W. rewrite (proj2 (prefix_iff o o)) by (exists []; rewrite app_nil_r; reflexivity). rewrite skipn_all. eexists. reflexivity.
  - rewrite (elements_cons e r NE). destruct (contains_dec e o) as [C|C].
    + rewrite (parse_in e (";"%char :: r) o false PO NE (or_intror (ex_intro _ r eq_refl)) C). split.
      * intros (r' & E). destruct (prefix o e) eqn:P; [|discriminate]. apply prefix_iff in P. destruct P as (b & ->). rewrite <- app_assoc, skipn_pre in E. destruct b as [|c b]; [exists [], (elements r); rewrite app_nil_r; split; [reflexivity|intros x []]|]. cbn in E. cbn in E. destruct (aeqb c ";") eqn:A; [|discriminate]. apply aeqb_eq in A. subst c. exfalso. apply NE. apply in_app_iff. right. left. reflexivity.
      * intros (pre & post & E & N). destruct pre as [|p pre]; [|cbn [app] in E; injection E as E1 _; subst e; exfalso; exact (N p (or_introl eq_refl) C)]. cbn [app] in E; injection E as E1 _; subst e. rewrite (proj2 (prefix_iff o o)) by (exists []; rewrite app_nil_r; reflexivity). rewrite skipn_pre. eexists. reflexivity.
    + rewrite (parse_out e r o false PO NE C), IH. split; intros (pre & post & E & N).
      * exists (e :: pre), post. rewrite E. split; [reflexivity|]. intros x [<-|I]; [exact C|exact (N x I)].
      * destruct pre as [|p pre]; [cbn [app] in E; injection E as E1 _; subst e; exfalso; apply C; rewrite <- (app_nil_r o) at 1; apply contains_self|]. cbn [app] in E; injection E as E1 E; subst e. exists pre, post. split; [exact E|]. intros x I. apply N. right. exact I.
Qed.
Lemma parse_arg : forall o v a, plain o -> parse_var v o true = Some a -> exists pre el post t, elements v = pre ++ (o ++ ","%char :: el) :: post /\ (forall x, In x pre -> ~ contains x o) /\ a = el ++ t /\ (t = [] \/ exists r, t = ";"%char :: r).
Proof.
  intros o v a PO. pose proof PO as (O & NO). induction v as [e NE|e r NE IH] using elements_ind; intros E.
  - rewrite (elements_none e NE). assert (C : contains e o) by (apply strstr_some; unfold parse_var in E; destruct (strstr e o); [eauto|discriminate]). pose proof (parse_in e [] o true PO NE (or_introl eq_refl) C) as W. rewrite app_nil_r in W. rewrite W in E. destruct (prefix o e) eqn:P; [|discriminate]. apply prefix_iff in P. destruct P as (b & ->). rewrite skipn_pre in E. destruct b as [|c b]; [discriminate|]. cbn in E. destruct (aeqb c ",") eqn:A; [|discriminate]. apply aeqb_eq in A. subst c. injection E as <-. exists [], b, [], []. rewrite app_nil_r. split; [reflexivity|]. split; [intros x []|]. auto.
  - rewrite (elements_cons e r NE). destruct (contains_dec e o) as [C|C].
    + rewrite (parse_in e (";"%char :: r) o true PO NE (or_intror (ex_intro _ r eq_refl)) C) in E. destruct (prefix o e) eqn:P; [|discriminate]. apply prefix_iff in P. destruct P as (b & ->). rewrite <- app_assoc, skipn_pre in E. destruct b as [|c b]; cbn in E; [discriminate|]. cbn in E. destruct (aeqb c ",") eqn:A; [|discriminate]. apply aeqb_eq in A. subst c. injection E as <-. exists [], b, (elements r), (";"%char :: r). split; [reflexivity|]. split; [intros x []|]. eauto.
    + rewrite (parse_out e r o true PO NE C) in E. destruct (IH E) as (pre & el & post & t & W & N & Q). exists (e :: pre), el, post, t. rewrite W. split; [reflexivity|]. split; [|exact Q]. intros x [<-|I]; [exact C|exact (N x I)].
Qed.
Lemma parse_arg_conv : forall o v pre el post, plain o -> elements v = pre ++ (o ++ ","%char :: el) :: post -> (forall x, In x pre -> ~ contains x o) -> exists t, parse_var v o true = Some (el ++ t) /\ (t = [] \/ exists r, t = ";"%char :: r).
Proof.
  intros o v pre el post PO. pose proof PO as (O & NO). revert pre. induction v as [e NE|e r NE IH] using elements_ind; intros pre E N.
  - rewrite (elements_none e NE) in E. destruct pre as [|p pre]; [|destruct pre; discriminate]. cbn [app] in E; injection E as E1 _; subst e. exists []. split; [|auto]. pose proof (parse_in (o ++ ","%char :: el) [] o true PO NE (or_introl eq_refl) (contains_self _ _)) as W. rewrite !app_nil_r in W. rewrite W, (proj2 (prefix_iff o _)) by eauto. rewrite skipn_pre. cbn. rewrite app_nil_r. reflexivity.
  - rewrite (elements_cons e r NE) in E. destruct pre as [|p pre]; cbn [app] in E; injection E as E1 E; subst e.
    + exists (";"%char :: r). split; [|eauto]. rewrite (parse_in _ (";"%char :: r) o true PO NE (or_intror (ex_intro _ r eq_refl)) (contains_self _ _)), (proj2 (prefix_iff o _)) by eauto. rewrite <- app_assoc, skipn_pre. reflexivity.
    + rewrite (parse_out p r o true PO NE (N p (or_introl eq_refl))). apply (IH pre E). intros x I. apply N. right. exact I.
Qed.
Lemma first_exists : forall (P : str -> Prop) (D : forall e, {P e} + {~ P e}) l, (exists e, In e l /\ P e) -> exists pre e post, l = pre ++ e :: post /\ P e /\ forall x, In x pre -> ~ P x.
Proof. intros P D l. induction l as [|x l IH]; intros (e & I & E); [destruct I|]. destruct (D x) as [W|W]; [exists [], x, l; split; [reflexivity|]; split; [exact W|intros y []]|]. destruct I as [->|I]; [contradiction|]. destruct (IH (ex_intro _ e (conj I E))) as (pre & y & post & -> & PY & N). exists (x :: pre), y, post. split; [reflexivity|]. split; [exact PY|]. intros z [<-|J]; [exact W|exact (N z J)]. Qed.
(* an option is found when listed, if no other element has it inside *)
Lemma parse_exact : forall o v, plain o -> (forall e, In e (elements v) -> contains e o -> e = o) -> (exists r, parse_var v o false = Some r) <-> listed v o.
Proof.
  intros o v PO EX. rewrite (parse_flag o v PO). split; [intros (pre & post & E & _); unfold listed; rewrite E; apply in_app_iff; right; left; reflexivity|].
  intros L. destruct (first_exists (fun e => contains e o) (fun e => contains_dec e o) (elements v)) as (pre & e & post & E & C & N); [exists o; split; [exact L|rewrite <- (app_nil_r o) at 1; apply contains_self]|]. assert (EO : e = o) by (apply EX; [rewrite E; apply in_app_iff; right; left; reflexivity|exact C]). subst e. exists pre, post. auto.
Qed.
Lemma parse_arg_exact : forall o v a, plain o -> (forall e, In e (elements v) -> contains e o -> e = o ++ ","%char :: a) -> (exists t, parse_var v o true = Some (a ++ t) /\ (t = [] \/ exists r, t = ";"%char :: r)) <-> given v o a.
Proof.
  intros o v a PO EX. split.
  - intros (t & E & T). destruct (parse_arg o v _ PO E) as (pre & el & post & t' & W & N & Q & T'). unfold given. rewrite W. apply in_app_iff. right. left. apply EX; [rewrite W; apply in_app_iff; right; left; reflexivity|apply contains_self].
  - intros L. destruct (first_exists (fun e => contains e o) (fun e => contains_dec e o) (elements v)) as (pre & e & post & E & C & N); [exists (o ++ ","%char :: a); split; [exact L|apply contains_self]|]. assert (EO : e = o ++ ","%char :: a) by (apply EX; [rewrite E; apply in_app_iff; right; left; reflexivity|exact C]). subst e. exact (parse_arg_conv o v pre a post PO E N).
Qed.

(* ---- the logger ---- *)
Lemma has_flag : forall v o, has v o = true <-> exists r, parse_var v (s_ o) false = Some r.
Proof. intros v o. unfold has. destruct (parse_var v (s_ o) false) as [r|]; split; [eauto|reflexivity|discriminate|intros (r & E); discriminate]. Qed.
Lemma known_plain : forall o, In o words_known -> plain o.
Proof. intros o I. unfold words_known in I. cbn [map] in I. repeat (destruct I as [<-|I]; [split; [discriminate|vm_compute; intuition discriminate]|]). destruct I. Qed.
Lemma has_listed : forall v o, clean v -> In (s_ o) words_known -> has v o = true <-> listed v (s_ o).
Proof. intros v o C K. rewrite has_flag. apply parse_exact; [apply known_plain; exact K|]. intros e I. apply C; [exact I|exact K]. Qed.
Lemma has_false : forall v o, clean v -> In (s_ o) words_known -> has v o = false -> ~ listed v (s_ o).
Proof. intros v o C K E L. apply (has_listed v o C K) in L. congruence. Qed.
Lemma first_level_spec : forall v key d, clean v -> (forall k x, In (k, x) (levels key) -> In (s_ k) words_known) -> choose v (levels key) d (first_level v key d).
Proof.
  intros v key d C K. unfold levels in *. cbn [map fst snd choose] in *. unfold first_level.
  assert (T : forall o, In (s_ o) words_known -> (has v o = true /\ listed v (s_ o)) \/ (has v o = false /\ ~ listed v (s_ o))).
  { intros o IK. destruct (has v o) eqn:H; [left; split; [reflexivity|apply has_listed; assumption]|right; split; [reflexivity|apply has_false; assumption]]. }
  destruct (T (key ++ "debug")%string) as [(-> & L)|(-> & L)]; [eapply K; left; reflexivity|left; split; [exact L|reflexivity]|]. right. split; [exact L|]. clear L.
  destruct (T (key ++ "info")%string) as [(-> & L)|(-> & L)]; [eapply K; do 1 right; left; reflexivity|left; split; [exact L|reflexivity]|]. right. split; [exact L|]. clear L.
  destruct (T (key ++ "warning")%string) as [(-> & L)|(-> & L)]; [eapply K; do 2 right; left; reflexivity|left; split; [exact L|reflexivity]|]. right. split; [exact L|]. clear L.
  destruct (T (key ++ "error")%string) as [(-> & L)|(-> & L)]; [eapply K; do 3 right; left; reflexivity|left; split; [exact L|reflexivity]|]. right. split; [exact L|]. clear L.
  destruct (T (key ++ "fatal")%string) as [(-> & L)|(-> & L)]; [eapply K; do 4 right; left; reflexivity|left; split; [exact L|reflexivity]|]. right. split; [exact L|]. reflexivity.
Qed.
Lemma strstr_semi : forall el t, ~ In ";"%char el -> (t = [] \/ exists r, t = ";"%char :: r) -> match strstr (el ++ t) (s_ ";") with Some k => k | None => List.length (el ++ t) end = List.length el.
Proof.
  intros el t N T. induction el as [|c el IH].
  - cbn [app]. destruct T as [->|(r & ->)]; reflexivity.
  - cbn [app]. cbn [strstr]. replace (prefix (s_ ";") (c :: el ++ t)) with false.
    + specialize (IH ltac:(intros W; apply N; right; exact W)). destruct (strstr (el ++ t) (s_ ";")); cbn [List.length]; lia.
    + symmetry. destruct (prefix (s_ ";") (c :: el ++ t)) eqn:P; [|reflexivity]. apply prefix_iff in P. destruct P as (b & E). injection E as -> _. exfalso. apply N. left. reflexivity.
Qed.
Lemma elements_no_sep : forall v e, In e (elements v) -> ~ In ";"%char e.
Proof.
  intros v. induction v as [e NE|e r NE IH] using elements_ind; intros x I.
  - rewrite (elements_none e NE) in I. destruct I as [<-|[]]. exact NE.
  - rewrite (elements_cons e r NE) in I. destruct I as [<-|I]; [exact NE|exact (IH x I)].
Qed.
Lemma file_plain : plain (s_ "output:file").
Proof. split; [discriminate|vm_compute; intuition discriminate]. Qed.
Lemma first_unique : forall o l pre e post pre' e' post', l = pre ++ e :: post -> l = pre' ++ e' :: post' -> contains e o -> contains e' o -> (forall x, In x pre -> ~ contains x o) -> (forall x, In x pre' -> ~ contains x o) -> e = e'.
Proof.
  intros o l pre. revert l. induction pre as [|p pre IH]; intros l e post pre' e' post' E E' C C' N N'; destruct pre' as [|p' pre']; cbn [app] in *.
  - congruence.
  - exfalso. apply (N' p'); [left; reflexivity|]. congruence.
  - exfalso. apply (N p); [left; reflexivity|]. congruence.
  - destruct l as [|x l]; [discriminate|]. injection E as -> E. injection E' as _ E'. apply (IH l e post pre' e' post' E E' C C'); intros y I; [apply N|apply N']; right; exact I.
Qed.
Lemma log_init_spec : forall opens v, clean v -> exists c, log_init opens v = Log c /\ goes_to opens v (out c) /\
  (out c = None -> c = defaults) /\
  (out c <> None -> (timestamp c = true <-> listed v (s_ "timestamp:yes")) /\ (pid c = true <-> listed v (s_ "pid:yes")) /\ choose v (levels "level:") Error (lvl c) /\ choose v (levels "flush:") Error (flush_lvl c)).
Proof.
  intros opens v C.
  assert (RI : forall o, goes_to opens v (Some o) -> exists c, rest_init v o = Log c /\ goes_to opens v (out c) /\ (out c = None -> c = defaults) /\ (out c <> None -> (timestamp c = true <-> listed v (s_ "timestamp:yes")) /\ (pid c = true <-> listed v (s_ "pid:yes")) /\ choose v (levels "level:") Error (lvl c) /\ choose v (levels "flush:") Error (flush_lvl c))).
  { intros o G. unfold rest_init. eexists. split; [reflexivity|]. cbn [out timestamp pid lvl flush_lvl]. split; [exact G|]. split; [discriminate|]. intros _. split; [|split; [|split]].
    - rewrite <- (has_listed v "timestamp:yes" C) by (cbn; tauto). destruct (has v "timestamp:yes"); [reflexivity|]. destruct (has v "timestamp:no"); reflexivity.
    - rewrite <- (has_listed v "pid:yes" C) by (cbn; tauto). destruct (has v "pid:yes"); [reflexivity|]. destruct (has v "pid:no"); reflexivity.
    - apply first_level_spec; [exact C|]. intros k x I. cbn [levels map fst snd] in I. repeat (destruct I as [I|I]; [injection I as <- <-; cbn; tauto|]). destruct I.
    - apply first_level_spec; [exact C|]. intros k x I. cbn [levels map fst snd] in I. repeat (destruct I as [I|I]; [injection I as <- <-; cbn; tauto|]). destruct I. }
  assert (OFF : goes_to opens v None -> exists c, Log defaults = Log c /\ goes_to opens v (out c) /\ (out c = None -> c = defaults) /\ (out c <> None -> (timestamp c = true <-> listed v (s_ "timestamp:yes")) /\ (pid c = true <-> listed v (s_ "pid:yes")) /\ choose v (levels "level:") Error (lvl c) /\ choose v (levels "flush:") Error (flush_lvl c))).
  { intros G. exists defaults. split; [reflexivity|]. split; [exact G|]. split; [reflexivity|]. intros W. exfalso. apply W. reflexivity. }
  unfold log_init. destruct (has v "output:stdout") eqn:H1; [apply RI; left; split; [apply has_listed; [exact C|cbn; tauto|exact H1]|reflexivity]|]. assert (N1 : ~ listed v (s_ "output:stdout")) by (apply has_false; [exact C|cbn; tauto|exact H1]).
  destruct (has v "output:stderr") eqn:H2; [apply RI; right; left; split; [exact N1|]; split; [apply has_listed; [exact C|cbn; tauto|exact H2]|reflexivity]|]. assert (N2 : ~ listed v (s_ "output:stderr")) by (apply has_false; [exact C|cbn; tauto|exact H2]).
  destruct (parse_var v (s_ "output:file") true) as [a|] eqn:PV.
  - destruct (parse_arg _ _ _ file_plain PV) as (pre & el & post & t & E & N & -> & T). assert (E' : elements v = pre ++ (s_ "output:file," ++ el) :: post) by exact E. assert (NS : ~ In ";"%char el) by (intros W; apply (elements_no_sep v (s_ "output:file" ++ ","%char :: el)); [rewrite E; apply in_app_iff; right; left; reflexivity|apply in_app_iff; right; right; exact W]). rewrite (strstr_semi el t NS T). cbv zeta.
    assert (ONE : forall pre' path post', elements v = pre' ++ (s_ "output:file," ++ path) :: post' -> (forall x, In x pre' -> ~ contains x (s_ "output:file")) -> path = el).
    { intros pre' path post' W N'. pose proof (first_unique (s_ "output:file") (elements v) _ _ _ _ _ _ W E' ltac:(exists [], (","%char :: path); reflexivity) ltac:(exists [], (","%char :: el); reflexivity) N' N) as Q. apply app_inv_head in Q. exact Q. }
    destruct (Nat.ltb_spec 256 (List.length el)) as [L|L].
    + apply OFF. right. right. split; [exact N1|]. split; [exact N2|]. right. split; [reflexivity|]. intros pre' path post' W N'. rewrite (ONE _ _ _ W N'). left. exact L.
    + destruct (Nat.leb_spec 257 (List.length el)) as [L2|L2]; [lia|]. rewrite firstn_app, firstn_all, Nat.sub_diag. cbn [firstn]. rewrite app_nil_r. destruct (opens el) eqn:OP.
      * apply RI. right. right. split; [exact N1|]. split; [exact N2|]. left. exists pre, el, post. auto.
      * apply OFF. right. right. split; [exact N1|]. split; [exact N2|]. right. split; [reflexivity|]. intros pre' path post' W N'. rewrite (ONE _ _ _ W N'). right. exact OP.
  - apply OFF. right. right. split; [exact N1|]. split; [exact N2|]. right. split; [reflexivity|]. intros pre path post W N. exfalso. destruct (parse_arg_conv (s_ "output:file") v pre path post file_plain W N) as (t & Q & _). congruence.
Qed.
Lemma log_init_safe : forall opens v, log_init opens v <> LCrash.
Proof. intros opens v. unfold log_init, rest_init. destruct (has v "output:stdout"); [discriminate|]. destruct (has v "output:stderr"); [discriminate|]. destruct (parse_var v (s_ "output:file") true) as [a|]; [|discriminate]. cbv zeta. destruct (Nat.ltb_spec 256 (match strstr a (s_ ";") with Some k => k | None => List.length a end)) as [L|L]; [discriminate|]. destruct (Nat.leb_spec 257 (match strstr a (s_ ";") with Some k => k | None => List.length a end)) as [L2|L2]; [lia|]. destruct (opens _); discriminate. Qed.
(* a text of known words only, and of files without known words, is clean *)
Definition unknown_inside (e : str) : bool := forallb (fun o => match strstr e o with Some _ => seqb e o | None => true end) words_known.
Lemma clean_check : forall v, forallb unknown_inside (elements v) = true -> clean v.
Proof. intros v F e o I K C. rewrite forallb_forall in F. specialize (F e I). unfold unknown_inside in F. rewrite forallb_forall in F. specialize (F o K). apply strstr_some in C. destruct C as (k & C). rewrite C in F. apply seqb_eq. exact F. Qed.
Lemma known_clean : forall v, (forall e, In e (elements v) -> In e words_known) -> clean v.
Proof.
  intros v F. apply clean_check. apply forallb_forall. intros e I. assert (W : forallb unknown_inside words_known = true) by (vm_compute; reflexivity). rewrite forallb_forall in W. apply W. exact (F e I).
Qed.

(* ---- the size threshold ---- *)
Lemma strstr_first : forall a o b, (forall a' b', a ++ o ++ b = a' ++ o ++ b' -> (List.length a <= List.length a')%nat) -> strstr (a ++ o ++ b) o = Some (List.length a).
Proof.
  induction a as [|c a IH]; intros o b F.
  - cbn [app List.length]. assert (P : prefix o (o ++ b) = true) by (apply prefix_iff; eauto). destruct (o ++ b) as [|x l]; cbn [strstr]; rewrite P; reflexivity.
  - cbn [app strstr List.length]. destruct (prefix o (c :: a ++ o ++ b)) eqn:P.
    + apply prefix_iff in P. destruct P as (b' & E). specialize (F [] b' E). cbn in F. lia.
    + rewrite IH; [reflexivity|]. intros a' b' E. specialize (F (c :: a') b' ltac:(cbn [app]; f_equal; exact E)). cbn in F. lia.
Qed.
Lemma threshold_spec : forall pre ds rest n, numeral 10 ds n -> ~ goes_on 10 rest -> (forall a b, pre ++ s_ "size.threshold=" ++ ds ++ rest = a ++ s_ "size.threshold=" ++ b -> (List.length pre <= List.length a)%nat) ->
  size_threshold (pre ++ s_ "size.threshold=" ++ ds ++ rest) = Some (Z.min n (2 ^ 63 - 1)).
Proof.
  intros pre ds rest n N G F. unfold size_threshold, env_get. rewrite (strstr_first pre (s_ "size.threshold=") (ds ++ rest) F). rewrite skipn_pre. change 15%nat with (List.length (s_ "size.threshold=")). rewrite skipn_pre. cbv zeta. destruct (numeral_head _ _ _ N) as (c & cs & d & -> & D & L). cbn [app].
  assert (DC : (48 <=? code c) && (code c <=? 57) = true) by (destruct D as [(D & _)|[(D & ->)|(D & ->)]]; [apply andb_true_iff; split; apply Z.leb_le; lia|lia|lia]). rewrite DC.
  change (c :: cs ++ rest) with ((c :: cs) ++ rest). rewrite (digits_app 10 (c :: cs) n ltac:(lia) N rest G). reflexivity.
Qed.
Lemma threshold_none : forall v, ~ contains v (s_ "size.threshold=") -> size_threshold v = Some 0.
Proof. intros v N. unfold size_threshold, env_get. destruct (strstr v (s_ "size.threshold=")) as [k|] eqn:S; [exfalso; apply N; apply strstr_some; eauto|reflexivity]. Qed.
