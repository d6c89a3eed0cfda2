(* Proofs about the control interface. *)
From Verif Require Import Base Model_Ctl Spec_Ctl.

Lemma aeqb_eq : forall a b, aeqb a b = true <-> a = b.
Proof. intros a b. unfold aeqb. apply Ascii.eqb_eq. Qed.
Lemma aeqb_neq : forall a b, aeqb a b = false <-> a <> b.
Proof. intros a b. unfold aeqb. apply Ascii.eqb_neq. Qed.
Lemma seqb_eq : forall a b, seqb a b = true <-> a = b.
Proof.
  induction a as [|x a IH]; destruct b as [|y b]; cbn [seqb]; try (split; [reflexivity || discriminate|reflexivity || discriminate]).
  rewrite andb_true_iff, IH, aeqb_eq. split; [intros (-> & ->); reflexivity|intros E; injection E as -> ->; auto].
Qed.

(* ---- words ---- *)
Definition nonempty (w : str) : bool := match w with [] => false | _ => true end.
Lemma split_cons : forall sep s, exists p ps, split sep s = p :: ps.
Proof. intros sep s. induction s as [|c s (p & ps & IH)]; cbn [split]; [exists [], []; reflexivity|]. rewrite IH. destruct (Ascii.eqb c sep); eexists _, _; reflexivity. Qed.
Lemma flush_words : forall i cur, map snd (flush i cur) = filter nonempty [List.rev cur].
Proof.
  intros i [|c cur]; [reflexivity|]. cbn [flush map snd filter]. assert (N : nonempty (List.rev (c :: cur)) = true).
  { cbn [List.rev]. destruct (List.rev cur); reflexivity. } rewrite N. reflexivity.
Qed.
Lemma toks_words : forall sep s i cur, map snd (toks sep s i cur) = filter nonempty (match split sep s with p :: ps => (List.rev cur ++ p) :: ps | [] => [] end).
Proof.
  intros sep s. induction s as [|c s IH]; intros i cur; cbn [toks split].
  - rewrite flush_words, app_nil_r. reflexivity.
  - destruct (split_cons sep s) as (p & ps & E). rewrite E in *. unfold aeqb. destruct (Ascii.eqb c sep) eqn:C.
    + rewrite map_app, flush_words, IH. cbn [List.rev app]. rewrite app_nil_r. change (List.rev cur :: p :: ps) with ([List.rev cur] ++ (p :: ps)). rewrite filter_app. reflexivity.
    + rewrite IH. cbn [List.rev]. rewrite <- app_assoc. reflexivity.
Qed.
Lemma tokens_words : forall sep s, map snd (tokens sep s) = words sep s.
Proof. intros sep s. unfold tokens. rewrite toks_words. destruct (split_cons sep s) as (p & ps & E). unfold words. rewrite E. reflexivity. Qed.
Lemma words_plain : forall sep a s, ~ In sep a -> a <> [] -> words sep (a ++ sep :: s) = a :: words sep s.
Proof.
  intros sep a s N NE. assert (S : split sep (a ++ sep :: s) = a :: split sep s).
  { clear NE. induction a as [|c a IH]; cbn [app split].
    - destruct (split_cons sep s) as (p & ps & E). rewrite E, Ascii.eqb_refl. reflexivity.
    - rewrite IH by (intros W; apply N; right; exact W). replace (Ascii.eqb c sep) with false; [reflexivity|]. symmetry. apply Ascii.eqb_neq. intros ->. apply N. left. reflexivity. }
  unfold words. rewrite S. cbn [filter]. destruct a; [contradiction|reflexivity].
Qed.
Lemma words_single : forall sep a, ~ In sep a -> a <> [] -> words sep a = [a].
Proof.
  intros sep a N NE. assert (S : split sep a = [a]).
  { clear NE. induction a as [|c a IH]; [reflexivity|]. cbn [split]. rewrite IH by (intros W; apply N; right; exact W). replace (Ascii.eqb c sep) with false; [reflexivity|]. symmetry. apply Ascii.eqb_neq. intros ->. apply N. left. reflexivity. }
  unfold words. rewrite S. destruct a; [contradiction|reflexivity].
Qed.
Lemma toks_suffix : forall sep s d0 cur a o t b, ~ In sep cur -> toks sep s (Z.of_nat (List.length d0) + Z.of_nat (List.length cur)) cur = a ++ (o, t) :: b ->
  words sep (skipn (Z.to_nat o) (d0 ++ List.rev cur ++ s)) = t :: map snd b.
Proof.
  intros sep s. induction s as [|c s IH]; intros d0 cur a o t b N E; cbn [toks] in E.
  - destruct cur as [|x cur]; [destruct a; discriminate|]. cbn [flush] in E. destruct a as [|y a]; [|destruct a; discriminate]. cbn [app] in E. injection E as <- <- <-.
    replace (Z.to_nat _) with (List.length d0) by lia. rewrite skipn_app, skipn_all, Nat.sub_diag. cbn [app skipn]. rewrite app_nil_r. change (List.rev cur ++ [x]) with (List.rev (x :: cur)). apply words_single.
    + intros W. apply N. apply in_rev. exact W.
    + cbn [List.rev]. destruct (List.rev cur); discriminate.
  - unfold aeqb in E. destruct (Ascii.eqb c sep) eqn:C.
    + apply Ascii.eqb_eq in C. subst c.
      assert (TL : forall a', toks sep s (Z.of_nat (List.length d0) + Z.of_nat (List.length cur) + 1) [] = a' ++ (o, t) :: b -> words sep (skipn (Z.to_nat o) (d0 ++ List.rev cur ++ sep :: s)) = t :: map snd b).
      { intros a' E'. specialize (IH (d0 ++ List.rev cur ++ [sep]) [] a' o t b). cbn [List.rev app List.length] in IH. rewrite <- !app_assoc in IH. cbn [app] in IH. apply IH; [intros []|].
        rewrite !app_length, rev_length. cbn [List.length]. replace (Z.of_nat _ + Z.of_nat 0) with (Z.of_nat (List.length d0) + Z.of_nat (List.length cur) + 1) by lia. exact E'. }
      destruct cur as [|x cur]; [exact (TL a E)|]. cbn [flush] in E. destruct a as [|y a]; [|cbn [app] in E; injection E as _ E; exact (TL a E)]. cbn [app] in E. injection E as <- <- <-.
      replace (Z.to_nat _) with (List.length d0) by lia. rewrite skipn_app, skipn_all, Nat.sub_diag. cbn [app skipn]. change (List.rev cur ++ [x]) with (List.rev (x :: cur)). rewrite words_plain.
      * f_equal. rewrite toks_words. destruct (split_cons sep s) as (p & ps & SE). unfold words. rewrite SE. reflexivity.
      * intros W. apply N. apply in_rev. exact W.
      * cbn [List.rev]. destruct (List.rev cur); discriminate.
    + specialize (IH d0 (c :: cur) a o t b). cbn [List.rev List.length] in IH. rewrite <- app_assoc in IH. cbn [app] in IH. apply IH.
      * intros [W|W]; [subst c; rewrite Ascii.eqb_refl in C; discriminate|exact (N W)].
      * rewrite <- E. f_equal. lia.
Qed.
Lemma tokens_suffix : forall sep s a o t b, tokens sep s = a ++ (o, t) :: b -> words sep (skipn (Z.to_nat o) s) = t :: map snd b.
Proof. intros sep s a o t b E. apply (toks_suffix sep s [] [] a o t b); [intros []|exact E]. Qed.

(* ---- numbers ---- *)
Lemma digit_ten : forall c, (digit c <? 10) = true <-> 48 <= code c <= 57.
Proof. intros c. unfold digit. cbv zeta. generalize (code c). intros v. rewrite Z.ltb_lt. destruct ((48 <=? v) && (v <=? 57)) eqn:A; [|destruct ((97 <=? v) && (v <=? 122)) eqn:B; [|destruct ((65 <=? v) && (v <=? 90)) eqn:C]]; lia. Qed.
Lemma zero_char : forall z, aeqb z "0" = true -> 48 <= code z <= 57.
Proof. intros z E. apply aeqb_eq in E. subst z. split; vm_compute; discriminate. Qed.
Lemma magnitude_some : forall s, magnitude s <> None <-> exists d r, s = d :: r /\ 48 <= code d <= 57.
Proof.
  intros s. unfold magnitude. destruct s as [|z [|x r]].
  - cbn. split; [intros W; contradiction|intros (d & r & E & _); discriminate].
  - cbn [starts]. destruct (digit z <? 10) eqn:D; split.
    + intros _. exists z, []. split; [reflexivity|]. apply digit_ten. exact D.
    + discriminate.
    + intros W; contradiction.
    + intros (d & r & E & Q). injection E as <- <-. apply digit_ten in Q. congruence.
  - destruct (aeqb z "0") eqn:Z0; cbn [andb].
    + split; [intros _; exists z, (x :: r); split; [reflexivity|exact (zero_char z Z0)]|]. intros _. destruct ((aeqb x "x" || aeqb x "X") && starts 16 r); discriminate.
    + cbn [starts]. destruct (digit z <? 10) eqn:D; split.
      * intros _. exists z, (x :: r). split; [reflexivity|]. apply digit_ten. exact D.
      * discriminate.
      * intros W; contradiction.
      * intros (d & r' & E & Q). injection E as <- <-. apply digit_ten in Q. congruence.
Qed.
Lemma space_iff : forall c, is_space c = true <-> code c = 32 \/ 9 <= code c <= 13.
Proof. intros c. unfold is_space. generalize (code c). intros v. lia. Qed.
Lemma skip_app : forall sp s, (forall c, In c sp -> is_space c = true) -> skip_space (sp ++ s) = skip_space s.
Proof. induction sp as [|c sp IH]; intros s H; [reflexivity|]. cbn [app skip_space]. rewrite (H c (or_introl eq_refl)). apply IH. intros x X. apply H. right. exact X. Qed.
Lemma skip_split : forall s, exists sp, s = sp ++ skip_space s /\ forall c, In c sp -> is_space c = true.
Proof.
  induction s as [|c s (sp & IH1 & IH2)]; [exists []; split; [reflexivity|intros c []]|]. cbn [skip_space]. destruct (is_space c) eqn:C; [|exists []; split; [reflexivity|intros x []]].
  exists (c :: sp). split; [cbn [app]; f_equal; exact IH1|]. intros x [<-|X]; [exact C|exact (IH2 x X)].
Qed.
Lemma strtoll_some : forall s, strtoll s <> None <-> magnitude (snd (signed (skip_space s))) <> None.
Proof.
  intros s. unfold strtoll. destruct (signed (skip_space s)) as (neg & s'). cbn [snd]. cbv zeta. destruct (magnitude s') as [m|]; split; intros W; solve [discriminate|exfalso; apply W; reflexivity|intros Q; inversion Q].
Qed.
Lemma numeric_iff : forall w, strtoll w <> None <-> numeric w.
Proof.
  intros w. rewrite strtoll_some, magnitude_some. split.
  - intros (d & r & E & D). destruct (skip_split w) as (sp & W & SP). assert (SP' : forall c, In c sp -> code c = 32 \/ 9 <= code c <= 13) by (intros c C; apply space_iff; exact (SP c C)).
    unfold signed in E. destruct (skip_space w) as [|c t]; [discriminate|]. destruct (aeqb c "-") eqn:C1; [|destruct (aeqb c "+") eqn:C2].
    + apply aeqb_eq in C1. cbn [snd] in E. subst c t. exists sp, ["-"%char], d, r. split; [exact W|]. split; [exact SP'|]. split; [auto|exact D].
    + apply aeqb_eq in C2. cbn [snd] in E. subst c t. exists sp, ["+"%char], d, r. split; [exact W|]. split; [exact SP'|]. split; [auto|exact D].
    + cbn [snd] in E. rewrite E in W. exists sp, [], d, r. split; [exact W|]. split; [exact SP'|]. split; [auto|exact D].
  - intros (sp & sign & d & r & -> & SP & SG & D). rewrite skip_app by (intros c C; apply space_iff; exact (SP c C)). exists d, r. split; [|exact D].
    assert (ND : is_space d = false) by (destruct (is_space d) eqn:Q; [apply space_iff in Q; lia|reflexivity]).
    assert (N1 : aeqb d "-" = false) by (apply aeqb_neq; intros ->; destruct D as (D & _); apply D; reflexivity). assert (N2 : aeqb d "+" = false) by (apply aeqb_neq; intros ->; destruct D as (D & _); apply D; reflexivity).
    destruct SG as [-> | [-> | ->]]; cbn [app skip_space]; [rewrite ND; unfold signed; rewrite N1, N2; reflexivity| |]; reflexivity.
Qed.
Lemma fits_named : forall w n, fits (match strtoll w with Some (v, _) => Some v | None => None end) w n = true <-> named w n.
Proof.
  intros w n. unfold named. rewrite <- numeric_iff. unfold fits. destruct (strtoll w) as [(v & e)|].
  - destruct (n_type n); rewrite ?seqb_eq; split; intros H; try (right; exact H); try (destruct H as [(_ & H)|H]; [discriminate|exact H]); [left; split; [discriminate|reflexivity]|reflexivity].
  - rewrite seqb_eq. split; [auto|]. intros [(H & _)|H]; [contradiction|exact H].
Qed.
Lemma find_first : forall w ns n, List.find (fits (match strtoll w with Some (v, _) => Some v | None => None end) w) ns = Some n -> first_named w ns n.
Proof.
  intros w ns n. induction ns as [|m ns IH]; cbn [List.find]; [discriminate|]. destruct (fits _ w m) eqn:F.
  - intros E. injection E as <-. exists [], ns. split; [reflexivity|]. split; [apply fits_named; exact F|intros x []].
  - intros E. destruct (IH E) as (pre & post & -> & A & B). exists (m :: pre), post. split; [reflexivity|]. split; [exact A|]. intros x [<-|X]; [|exact (B x X)]. intros W. apply fits_named in W. congruence.
Qed.
Lemma find_none : forall w ns n, List.find (fits (match strtoll w with Some (v, _) => Some v | None => None end) w) ns = None -> ~ first_named w ns n.
Proof. intros w ns n E (pre & post & -> & A & _). pose proof (find_none _ _ E n) as Q. assert (In n (pre ++ n :: post)) by (apply in_or_app; right; left; reflexivity). specialize (Q H). apply fits_named in A. congruence. Qed.
Lemma first_det : forall w ns n m, first_named w ns n -> first_named w ns m -> n = m.
Proof.
  intros w ns. induction ns as [|x ns IH]; intros n m (p1 & q1 & E1 & A1 & B1) (p2 & q2 & E2 & A2 & B2); [destruct p1; discriminate|].
  destruct p1 as [|y p1], p2 as [|z p2]; cbn [app] in E1, E2; injection E1 as EX E1; injection E2 as EY E2; subst.
  - reflexivity.
  - exfalso. eapply B2; [left; reflexivity|exact A1].
  - exfalso. eapply B1; [left; reflexivity|exact A2].
  - apply IH; [exists p1, q1|exists p2, q2]; (split; [assumption || reflexivity|]); (split; [assumption|]); intros u U; [apply B1|apply B2]; right; exact U.
Qed.
Lemma reach_det : forall ns ws n l, reach ns ws n l -> forall m k, reach ns ws m k -> n = m /\ l = k.
Proof.
  intros ns ws n l R. induction R as [ns w n F|ns w n rest F T NE|ns w n rest ns' m left F T C R IH]; intros m2 k Q; inversion Q as [a1 a2 a3 F2|a1 a2 a3 a4 F2 T2 NE2|a1 a2 a3 a4 ns2 m3 l3 F2 T2 C2 R2]; subst.
  - split; [exact (first_det _ _ _ _ F F2)|reflexivity].
  - contradiction.
  - inversion R2.
  - contradiction.
  - split; [exact (first_det _ _ _ _ F F2)|reflexivity].
  - pose proof (first_det _ _ _ _ F F2). subst. contradiction.
  - inversion R.
  - pose proof (first_det _ _ _ _ F F2). subst. contradiction.
  - pose proof (first_det _ _ _ _ F F2). subst. rewrite C in C2. injection C2 as <-. exact (IH _ _ R2).
Qed.
Lemma reach_beyond : forall ns ws n l, reach ns ws n l -> ~ beyond ns ws.
Proof.
  intros ns ws n l R. induction R as [ns w n F|ns w n rest F T NE|ns w n rest ns' m left F T C R IH]; intros B; inversion B as [a1 a2 n2 a4 F2 T2 C2 NE2|a1 a2 n2 a4 ns2 F2 T2 C2 B2]; subst; try contradiction;
    try (inversion B2; fail); pose proof (first_det _ _ _ _ F F2); subst; try contradiction; try congruence.
Qed.

(* ---- search ---- *)
Lemma loop_spec : forall ts ns n off ix, ts <> [] -> (forall m, n = Some m -> n_type m <> Subtree) ->
  match fst (find_loop (Some ns) n off ts ix) with
  | Found m o => exists left pre t post, reach ns (map snd ts) m left /\ ts = pre ++ (o, t) :: post /\ ((left = [] /\ post = []) \/ left = t :: map snd post)
  | Missing => (forall m l, ~ reach ns (map snd ts) m l) /\ ~ beyond ns (map snd ts)
  | Crash => beyond ns (map snd ts)
  end.
Proof.
  induction ts as [|(o & w) ts IH]; intros ns n off ix NE SN; [contradiction|]. cbn [find_loop].
  replace (match n with Some m => match n_type m with Subtree => Some m | _ => None end | None => None end) with (@None node) by (destruct n as [m|]; [|reflexivity]; specialize (SN m eq_refl); destruct (n_type m); [reflexivity|reflexivity|reflexivity|contradiction]).
  cbv zeta. destruct (List.find _ ns) as [m|] eqn:F; [|].
  2:{ cbn [fst map snd]. split; [intros m l R; inversion R|intros B; inversion B]; subst; eapply find_none; eassumption. }
  apply find_first in F. clear NE SN n off. remember (match (match strtoll w with Some (v, _) => Some v | None => None end) with Some v => (n_name m, v) :: ix | None => ix end) as ix' eqn:EI. clear EI ix.
  destruct ts as [|(o2 & w2) ts].
  - cbn [find_loop fst map snd]. exists [], [], w, []. split; [apply re_last; exact F|]. split; [reflexivity|]. left. auto.
  - destruct (n_type m) eqn:T; try (
      assert (NT : n_type m <> Subtree) by (rewrite T; discriminate);
      destruct (n_children m) as [ns'|] eqn:C;
      [ specialize (IH ns' (Some m) o ix' ltac:(discriminate) ltac:(intros m' E; injection E as <-; exact NT));
        destruct (fst (find_loop (Some ns') (Some m) o ((o2, w2) :: ts) ix')) as [m'' o''| |];
        [ destruct IH as (left & pre & t & post & R & E & L); exists left, ((o, w) :: pre), t, post; cbn [map snd] in *; split; [eapply re_down; eassumption|]; split; [rewrite E; reflexivity|exact L]
        | destruct IH as (I1 & I2); cbn [map snd] in *; split;
          [ intros m'' l R; inversion R as [|a1 a2 n2 a4 F2 T2 NE2|a1 a2 n2 a4 ns2 m3 l3 F2 T2 C2 R2]; subst; pose proof (first_det _ _ _ _ F F2); subst; [contradiction|]; rewrite C in C2; injection C2 as <-; exact (I1 _ _ R2)
          | intros B; inversion B as [a1 a2 n2 a4 F2 T2 C2 NE2|a1 a2 n2 a4 ns2 F2 T2 C2 B2]; subst; pose proof (first_det _ _ _ _ F F2); subst; [congruence|]; rewrite C in C2; injection C2 as <-; exact (I2 B2) ]
        | cbn [map snd] in *; eapply be_down; eassumption ]
      | cbn [find_loop]; rewrite T; cbn [fst]; cbn [map snd]; eapply be_here; [exact F|exact NT|exact C|discriminate] ]).
    cbn [find_loop]. rewrite T. cbn [fst map snd]. exists (w2 :: map snd ts), [(o, w)], w2, ts. split; [apply re_subtree; [exact F|exact T|discriminate]|]. split; [reflexivity|]. right. reflexivity.
Qed.
Definition spec_found (ns : list node) (name : str) (f : found) : Prop :=
  match f with
  | Found n off => exists left, reach ns (words "." name) n left /\ (left <> [] -> words "." (skipn (Z.to_nat off) name) = left)
  | Missing => (forall m l, ~ reach ns (words "." name) m l) /\ ~ beyond ns (words "." name)
  | Crash => beyond ns (words "." name)
  end.
Lemma find_spec : forall ns name, spec_found ns name (fst (find_node ns name)).
Proof.
  intros ns name. unfold find_node. unfold spec_found. rewrite <- (tokens_words "." name). destruct (tokens "." name) as [|x ts] eqn:E.
  - cbn [find_loop fst map]. split; [intros m l R; inversion R|intros B; inversion B].
  - pose proof (loop_spec (x :: ts) ns None 0 [] ltac:(discriminate) ltac:(discriminate)) as L. destruct (fst (find_loop (Some ns) None 0 (x :: ts) [])) as [m o| |]; [|exact L|exact L].
    destruct L as (left & pre & t & post & R & EQ & LL). exists left. split; [exact R|]. intros NE. destruct LL as [(-> & _) | ->]; [contradiction|]. apply tokens_suffix with (a := pre). rewrite E. exact EQ.
Qed.

(* ---- values ---- *)
Lemma digit_spec : forall c base, base <= 36 -> (digit c <? base = true <-> exists d, digit_is c d /\ d < base) /\ (digit c <? base = true -> digit_is c (digit c)).
Proof.
  intros c base B. assert (K : (digit_is c (digit c) \/ digit c = 99) /\ forall d, digit_is c d -> d = digit c).
  { unfold digit, digit_is. cbv zeta. generalize (code c). intros v. destruct (Z.leb_spec 48 v); destruct (Z.leb_spec v 57); destruct (Z.leb_spec 97 v); destruct (Z.leb_spec v 122); destruct (Z.leb_spec 65 v); destruct (Z.leb_spec v 90); cbn [andb]; split; try (intros d W); lia. }
  destruct K as (K1 & K2). split.
  - rewrite Z.ltb_lt. split; [intros L; exists (digit c); split; [destruct K1; [assumption|lia]|exact L]|]. intros (d & D & L). rewrite <- (K2 d D). exact L.
  - rewrite Z.ltb_lt. intros L. destruct K1; [assumption|lia].
Qed.
Lemma digit_det : forall c d, digit_is c d -> digit c = d.
Proof.
  intros c d. unfold digit, digit_is. cbv zeta. generalize (code c). intros v W. destruct (Z.leb_spec 48 v); destruct (Z.leb_spec v 57); destruct (Z.leb_spec 97 v); destruct (Z.leb_spec v 122); destruct (Z.leb_spec 65 v); destruct (Z.leb_spec v 90); cbn [andb]; lia.
Qed.
Lemma starts_spec : forall base s, base <= 36 -> starts base s = true <-> goes_on base s.
Proof.
  intros base s B. destruct s as [|c s]; cbn [starts]; split.
  - discriminate.
  - intros (c & d & s' & E & _). discriminate.
  - intros L. apply (proj1 (digit_spec c base B)) in L. destruct L as (d & D & L). exists c, d, s. auto.
  - intros (c' & d & s' & E & D & L). injection E as <- <-. apply (proj1 (digit_spec c base B)). exists d. auto.
Qed.
(* longest run of digits *)
Lemma digits_app : forall base cs v, base <= 36 -> numeral base cs v -> forall rest, ~ goes_on base rest -> digits base (cs ++ rest) 0 = v.
Proof.
  intros base cs v B N. assert (G : forall rest, digits base (cs ++ rest) 0 = digits base rest v).
  { induction N as [c d D L|cs v c d N IH D L]; intros rest.
    - cbn [app digits]. rewrite (proj2 (proj1 (digit_spec c base B)) (ex_intro _ d (conj D L))). rewrite (digit_det c d D). reflexivity.
    - rewrite <- app_assoc. rewrite IH. cbn [app digits]. rewrite (proj2 (proj1 (digit_spec c base B)) (ex_intro _ d (conj D L))). rewrite (digit_det c d D). f_equal. lia. }
  intros rest NG. rewrite G. destruct rest as [|c rest]; cbn [digits]; [reflexivity|]. destruct (digit c <? base) eqn:E; [|reflexivity]. exfalso. apply NG. apply starts_spec; [exact B|exact E].
Qed.
Lemma digits_run : forall base s acc cs0, base <= 36 -> numeral base cs0 acc -> exists cs rest v, s = cs ++ rest /\ numeral base (cs0 ++ cs) v /\ ~ goes_on base rest /\ digits base s acc = v.
Proof.
  intros base s. induction s as [|c s IH]; intros acc cs0 B N.
  - exists [], [], acc. split; [reflexivity|]. split; [rewrite app_nil_r; exact N|]. split; [intros (c & d & s' & E & _); discriminate|reflexivity].
  - cbn [digits]. destruct (digit c <? base) eqn:E.
    + pose proof (proj2 (digit_spec c base B) E) as D. apply Z.ltb_lt in E. destruct (IH (acc * base + digit c) (cs0 ++ [c]) B) as (cs & rest & v & E1 & E2 & E3 & E4).
      { rewrite Z.mul_comm. apply nu_more; assumption. }
      exists (c :: cs), rest, v. rewrite E1. split; [reflexivity|]. rewrite <- app_assoc in E2. split; [exact E2|]. split; [exact E3|]. rewrite <- E1. exact E4.
    + exists [], (c :: s), acc. split; [reflexivity|]. split; [rewrite app_nil_r; exact N|]. split; [|reflexivity]. intros G. apply starts_spec in G; [|exact B]. cbn [starts] in G. congruence.
Qed.
Lemma digits_split : forall base s, base <= 36 -> starts base s = true -> exists cs rest, s = cs ++ rest /\ hd_error cs = hd_error s /\ numeral base cs (digits base s 0) /\ ~ goes_on base rest.
Proof.
  intros base s B S. destruct s as [|c s]; [discriminate|]. cbn [starts] in S. cbn [digits]. rewrite S. pose proof (proj2 (digit_spec c base B) S) as D. apply Z.ltb_lt in S.
  destruct (digits_run base s (0 * base + digit c) [c] B) as (cs & rest & v & E1 & E2 & E3 & E4); [apply nu_one; assumption|]. exists (c :: cs), rest. rewrite E4. rewrite E1. auto.
Qed.
Lemma numeral_head : forall base cs v, numeral base cs v -> exists c cs' d, cs = c :: cs' /\ digit_is c d /\ d < base.
Proof.
  intros base cs v N. induction N as [c d D L|cs v c d N (c' & cs' & d' & -> & D' & L') D L].
  - exists c, [], d. auto.
  - exists c', (cs' ++ [c]), d'. auto.
Qed.
Lemma magnitude_spec : forall s m, magnitude s = Some m <-> constant s m.
Proof.
  intros s m. split.
  - intros E. unfold magnitude in E.
    assert (DEC : forall s, starts 10 s = true -> hd_error s <> Some "0"%char -> constant s (digits 10 s 0)).
    { clear. intros s S H. destruct (digits_split 10 s ltac:(lia) S) as (cs & rest & -> & H' & N & G). apply co_dec; [|congruence|exact G]. exact N. }
    destruct s as [|z [|x r]].
    + discriminate.
    + destruct (starts 10 [z]) eqn:S; [|discriminate]. injection E as <-. destruct (ascii_dec z "0") as [->|NZ].
      * apply (co_oct ["0"%char] [] 0); [apply nu_one; [left; cbv; split; [split; discriminate|reflexivity]|lia]|reflexivity|intros (c & d & s' & W & _); discriminate|].
        intros (x & rest' & _ & W & _). discriminate.
      * apply DEC; [exact S|]. cbn [hd_error]. intros W. injection W as W. contradiction.
    + unfold aeqb in E. destruct (Ascii.eqb_spec z "0") as [->|NZ]; cbn [andb] in E.
      * destruct ((Ascii.eqb x "x" || Ascii.eqb x "X") && starts 16 r) eqn:HX.
        -- injection E as <-. apply andb_true_iff in HX. destruct HX as (X & S). destruct (digits_split 16 r ltac:(lia) S) as (cs & rest & E & _ & N & G). rewrite E in N |- *. apply co_hex; [|exact N|exact G].
           apply orb_true_iff in X. destruct X as [X|X]; apply Ascii.eqb_eq in X; auto.
        -- assert (EM : m = digits 8 ("0"%char :: x :: r) 0) by congruence. rewrite EM. clear E EM. destruct (digits_split 8 ("0"%char :: x :: r) ltac:(lia) eq_refl) as (cs & rest & E & H & N & G). rewrite E in N |- *. apply co_oct; [exact N|exact H|exact G|].
           intros (x' & rest' & E1 & E2 & X & G16). rewrite E1, E2 in E. injection E as -> ->. apply starts_spec in G16; [|lia]. rewrite G16 in HX. destruct X as [-> | ->]; discriminate.
      * destruct (starts 10 (z :: x :: r)) eqn:S; [|discriminate]. injection E as <-. apply DEC; [exact S|]. cbn [hd_error]. intros W. injection W as W. contradiction.
  - intros C. destruct C as [x cs rest v X N G|cs rest v N H G NX|cs rest v N H G].
    + cbn [magnitude]. replace (aeqb "0" "0" && (aeqb x "x" || aeqb x "X") && starts 16 (cs ++ rest)) with true; [f_equal; apply digits_app; [lia|exact N|exact G]|].
      symmetry. apply andb_true_iff. split; [destruct X as [-> | ->]; reflexivity|]. apply starts_spec; [lia|]. destruct (numeral_head _ _ _ N) as (c & cs' & d & -> & D & L). exists c, d, (cs' ++ rest). auto.
    + pose proof (digits_app 8 cs v ltac:(lia) N rest G) as DG. destruct cs as [|z cs']; [discriminate|]. cbn [hd_error] in H. injection H as ->. cbn [app] in *. destruct (cs' ++ rest) as [|x r] eqn:ER.
      * cbn [magnitude starts]. change (digit "0" <? 10) with true. cbn iota. f_equal. rewrite <- DG. reflexivity.
      * cbn [magnitude]. rewrite DG. change (aeqb "0" "0") with true. cbn [andb]. destruct ((aeqb x "x" || aeqb x "X") && starts 16 r) eqn:HX; [|reflexivity]. exfalso. apply andb_true_iff in HX. destruct HX as (X & S).
        assert (XX : x = "x"%char \/ x = "X"%char) by (apply orb_true_iff in X; unfold aeqb in X; destruct X as [X|X]; apply Ascii.eqb_eq in X; auto). apply NX. exists x, r.
        destruct cs' as [|c2 cs2]; cbn [app] in ER; [split; [reflexivity|]; split; [exact ER|]; split; [exact XX|]; apply starts_spec; [lia|exact S]|].
        exfalso. injection ER as -> ER. clear - N XX.
        assert (ALL : forall cs v, numeral 8 cs v -> forall c, In c cs -> exists d, digit_is c d /\ d < 8).
        { clear. intros cs v N. induction N as [c d D L|cs v c d N IH D L]; intros c' I; [destruct I as [<-|[]]; eauto|]. apply in_app_iff in I. destruct I as [I|[<-|[]]]; eauto. }
        destruct (ALL _ _ N x (or_intror (or_introl eq_refl))) as (d & D & L). apply digit_det in D. destruct XX as [-> | ->]; change (digit _) with 33 in D; lia.
    + pose proof (digits_app 10 cs v ltac:(lia) N rest G) as DG. destruct (numeral_head _ _ _ N) as (z & cs' & d & -> & D & L). cbn [hd_error] in H. assert (NZ : aeqb z "0" = false) by (apply Ascii.eqb_neq; congruence).
      assert (S : starts 10 ((z :: cs') ++ rest) = true) by (apply starts_spec; [lia|]; exists z, d, (cs' ++ rest); auto). cbn [app] in *. destruct (cs' ++ rest) as [|x r]; cbn [magnitude]; [rewrite S; rewrite DG; reflexivity|]. rewrite NZ. cbn [andb]. rewrite S, DG. reflexivity.
Qed.
Lemma skip_pre : forall s, exists spaces, s = spaces ++ skip_space s /\ forall c, In c spaces -> code c = 32 \/ 9 <= code c <= 13.
Proof.
  induction s as [|c s (sp & E & H)]; [exists []; split; [reflexivity|intros c []]|]. cbn [skip_space]. destruct (is_space c) eqn:S.
  - exists (c :: sp). split; [cbn; f_equal; exact E|]. intros c' [<-|I]; [|exact (H c' I)]. clear - S. unfold is_space in S. apply orb_true_iff in S. rewrite Z.eqb_eq, andb_true_iff, !Z.leb_le in S. lia.
  - exists []. split; [reflexivity|intros c' []].
Qed.
Lemma skip_cat : forall spaces s, (forall c, In c spaces -> code c = 32 \/ 9 <= code c <= 13) -> (forall c r, s = c :: r -> is_space c = false) -> skip_space (spaces ++ s) = s.
Proof.
  induction spaces as [|c sp IH]; intros s H N; cbn [app].
  - destruct s as [|c r]; [reflexivity|]. cbn [skip_space]. rewrite (N c r eq_refl). reflexivity.
  - cbn [skip_space]. assert (is_space c = true) as ->; [|apply IH; [intros c' I; apply H; right; exact I|exact N]].
    pose proof (H c (or_introl eq_refl)) as W. clear - W. unfold is_space. apply orb_true_iff. rewrite Z.eqb_eq, andb_true_iff, !Z.leb_le. lia.
Qed.
Lemma constant_digit : forall s m, constant s m -> exists c r, s = c :: r /\ 48 <= code c <= 57.
Proof.
  intros s m C. destruct C as [x cs rest v X N G|cs rest v N H G NX|cs rest v N H G].
  - eexists _, _. split; [reflexivity|]. cbv. split; discriminate.
  - destruct cs as [|z cs]; [discriminate|]. cbn in H. injection H as ->. eexists _, _. split; [reflexivity|]. cbv. split; discriminate.
  - destruct (numeral_head _ _ _ N) as (z & cs' & d & -> & D & L). exists z, (cs' ++ rest). split; [reflexivity|]. clear - D L. unfold digit_is in D. lia.
Qed.
Definition clamp (v : Z) : Z * bool := if v <? - 2 ^ 63 then (- 2 ^ 63, true) else if 2 ^ 63 - 1 <? v then (2 ^ 63 - 1, true) else (v, false).
Lemma strtoll_spec : forall s r, strtoll s = Some r <-> exists v, integer s v /\ r = clamp v.
Proof.
  intros s r. change (strtoll s) with (let '(neg, b) := signed (skip_space s) in match magnitude b with None => None | Some m => Some (clamp (if neg then - m else m)) end). split.
  - destruct (signed (skip_space s)) as (neg & b) eqn:SG. destruct (magnitude b) as [m|] eqn:M; [|discriminate]. intros E. assert (EM : r = clamp (if neg then - m else m)) by congruence. clear E. apply magnitude_spec in M.
    exists (if neg then - m else m). split; [clear EM r|exact EM]. destruct (skip_pre s) as (sp & E & H). unfold signed in SG. destruct (skip_space s) as [|c r'] eqn:SS.
    + injection SG as <- <-. destruct (constant_digit _ _ M) as (c & r & W & _). discriminate.
    + unfold aeqb in SG. destruct (Ascii.eqb_spec c "-") as [->|N1].
      { injection SG as <- <-. exists sp, ["-"%char], r', m. split; [exact E|]. split; [exact H|]. split; [exact M|]. left. auto. }
      destruct (Ascii.eqb_spec c "+") as [->|N2]; injection SG as <- <-.
      { exists sp, ["+"%char], r', m. split; [exact E|]. split; [exact H|]. split; [exact M|]. right. auto. }
      exists sp, [], (c :: r'), m. split; [exact E|]. split; [exact H|]. split; [exact M|]. right. auto.
  - intros (v & (sp & sg & b & m & -> & H & C & SG) & ->). destruct (constant_digit _ _ C) as (c & r & E & D).
    assert (NS : is_space c = false) by (clear - D; unfold is_space; apply orb_false_iff; split; [apply Z.eqb_neq; lia|]; apply andb_false_iff; right; apply Z.leb_gt; lia).
    apply magnitude_spec in C. destruct SG as [(-> & ->)|([-> | ->] & ->)].
    + rewrite skip_cat; [|exact H|intros c' r' W; injection W as <- <-; reflexivity]. cbn [app signed]. change (aeqb "-" "-") with true. cbn iota. rewrite C. reflexivity.
    + cbn [app]. rewrite skip_cat; [|exact H|intros c' r' W; rewrite E in W; injection W as <- <-; exact NS]. rewrite E in *. cbn [signed]. unfold aeqb.
      assert (N1 : Ascii.eqb c "-" = false) by (apply Ascii.eqb_neq; intros ->; cbv in D; destruct D as (D & _); apply D; reflexivity).
      assert (N2 : Ascii.eqb c "+" = false) by (apply Ascii.eqb_neq; intros ->; cbv in D; destruct D as (D & _); apply D; reflexivity). rewrite N1, N2. rewrite C. reflexivity.
    + rewrite skip_cat; [|exact H|intros c' r' W; injection W as <- <-; reflexivity]. cbn [app signed]. change (aeqb "+" "-") with false. change (aeqb "+" "+") with true. cbn iota. rewrite C. reflexivity.
Qed.
Lemma bool_char : forall c, ((lower c =? 121) || aeqb c "1" = true <-> In c (s_ "yY1")) /\ ((lower c =? 110) || aeqb c "0" = true <-> In c (s_ "nN0")) /\ ((lower c =? 121) || aeqb c "1" = true -> (lower c =? 110) || aeqb c "0" = false).
Proof.
  intros c. assert (M : forall l, In c l <-> existsb (aeqb c) l = true).
  { intros l. rewrite existsb_exists. split; [intros I; exists c; split; [exact I|apply Ascii.eqb_refl]|]. intros (x & I & E). apply Ascii.eqb_eq in E. rewrite E. exact I. }
  rewrite !M. assert (E1 : (lower c =? 121) || aeqb c "1" = existsb (aeqb c) (s_ "yY1")) by (destruct c as [[] [] [] [] [] [] [] []]; reflexivity).
  assert (E2 : (lower c =? 110) || aeqb c "0" = existsb (aeqb c) (s_ "nN0")) by (destruct c as [[] [] [] [] [] [] [] []]; reflexivity).
  rewrite E1, E2. split; [reflexivity|]. split; [reflexivity|]. clear. destruct c as [[] [] [] [] [] [] [] []]; vm_compute; intros W; solve [reflexivity | discriminate W].
Qed.
Lemma one_spec : forall p w v, parse_one p w = Some v <-> field p w v.
Proof.
  intros p w v. destruct p as [|size|size]; cbn [parse_one field].
  - destruct w as [|c w]; [split; [discriminate|intros (c & w' & W & _); discriminate]|]. destruct (bool_char c) as (B1 & B2 & B3). destruct ((lower c =? 121) || aeqb c "1") eqn:E1.
    + split; [intros E; injection E as <-; exists c, w; split; [reflexivity|]; left; split; [apply B1|]; reflexivity|]. intros (c' & w' & E & [(I & ->)|(I & ->)]); injection E as <- <-; [reflexivity|]. apply B2 in I. rewrite (B3 eq_refl) in I. discriminate.
    + destruct ((lower c =? 110) || aeqb c "0") eqn:E2.
      * split; [intros E; injection E as <-; exists c, w; split; [reflexivity|]; right; split; [apply B2|]; reflexivity|]. intros (c' & w' & E & [(I & ->)|(I & ->)]); injection E as <- <-; [|reflexivity]. apply B1 in I. discriminate.
      * split; [discriminate|]. intros (c' & w' & E & [(I & ->)|(I & ->)]); injection E as <- <-; [apply B1 in I|apply B2 in I]; discriminate.
  - split.
    + destruct (strtoll w) as [r|] eqn:S; [|discriminate]. apply strtoll_spec in S. destruct S as (i & I & ->). intros E. exists i. split; [exact I|]. clear I. unfold clamp in E.
      destruct (Z.ltb_spec i (- 2 ^ 63)); [discriminate|]. destruct (Z.ltb_spec (2 ^ 63 - 1) i); [discriminate|]. destruct (Z.eqb_spec i (- 2 ^ 63)); [discriminate|].
      destruct (Z.eqb_spec size 4) as [->|]; [destruct (Z.ltb_spec (2 ^ 31 - 1) i); [discriminate|]; destruct (Z.ltb_spec i (- 2 ^ 31)); [discriminate|]; cbn in E; injection E as <-; split; [reflexivity|]; left; lia|].
      destruct (Z.eqb_spec size 8) as [->|]; [injection E as <-; split; [reflexivity|]; right; left; lia|].
      destruct (Z.eqb_spec size 1) as [->|]; [|discriminate]. destruct (Z.ltb_spec 255 i); [discriminate|]; destruct (Z.ltb_spec i 0); [discriminate|]; cbn in E; injection E as <-. split; [reflexivity|]. right. right. lia.
    + intros (i & I & -> & R). assert (S : strtoll w = Some (clamp i)) by (apply strtoll_spec; exists i; auto). rewrite S. clear S I. unfold clamp.
      assert (RR : - 2 ^ 63 < i < 2 ^ 63) by lia. rewrite (proj2 (Z.ltb_ge i (- 2 ^ 63))) by lia. rewrite (proj2 (Z.ltb_ge (2 ^ 63 - 1) i)) by lia. rewrite (proj2 (Z.eqb_neq i (- 2 ^ 63))) by lia.
      destruct R as [(-> & R)|[(-> & R)|(-> & R)]]; cbn [Z.eqb]; [|reflexivity|].
      * change (4 =? 4) with true. cbn iota. rewrite (proj2 (Z.ltb_ge (2 ^ 31 - 1) i)) by lia. rewrite (proj2 (Z.ltb_ge i (- 2 ^ 31))) by lia. reflexivity.
      * change (1 =? 4) with false. change (1 =? 8) with false. change (1 =? 1) with true. cbn iota. rewrite (proj2 (Z.ltb_ge 255 i)) by lia. rewrite (proj2 (Z.ltb_ge i 0)) by lia. reflexivity.
  - destruct (Z.ltb_spec (Z.of_nat (List.length w)) size) as [L|L]; split.
    + intros E. injection E as <-. auto.
    + intros (-> & _). reflexivity.
    + discriminate.
    + intros (_ & W). lia.
Qed.
Lemma all_spec : forall ps ws vs, parse_all ps ws = Some vs <-> fields ps ws vs.
Proof.
  induction ps as [|p ps IH]; intros ws vs; cbn [parse_all].
  - split; [intros E; injection E as <-; apply fi_end|]. intros F. inversion F. reflexivity.
  - destruct ws as [|w ws]; [split; [discriminate|intros F; inversion F]|]. destruct (parse_one p w) as [v|] eqn:P.
    + destruct (parse_all ps ws) as [vs'|] eqn:A.
      * split; [intros E; injection E as <-; apply fi_next; [apply one_spec; exact P|apply IH; exact A]|]. intros F. inversion F as [|? ? ? ? v0 vs0 F1 F2]; subst. apply one_spec in F1. apply IH in F2. congruence.
      * split; [discriminate|]. intros F. inversion F as [|? ? ? ? v0 vs0 F1 F2]; subst. apply IH in F2. congruence.
    + split; [discriminate|]. intros F. inversion F as [|? ? ? ? v0 vs0 F1 F2]; subst. apply one_spec in F1. congruence.
Qed.
Lemma args_spec : forall ps s vs, parse_args ps s = Some vs <-> fields ps (words "," s) vs.
Proof. intros ps s vs. unfold parse_args. rewrite tokens_words. apply all_spec. Qed.

(* ---- queries ---- *)
Lemma exec_spec : forall h past n cb a ix extra ty left, (n_type n = Leaf \/ n_type n = Subtree) ->
  n_cb n (match n_type n with Subtree => QSubtree | _ => ty end) = Some cb -> (left <> [] -> words "." extra = left) ->
  match exec_query h past n cb a ix extra (match n_type n with Subtree => QSubtree | _ => ty end) ty with
  | ACrash => False
  | Ans r log => (log = [] /\ r = -1 /\ forall a', ~ argument n ty a a') \/ exists k, log = [k] /\ r = h past k /\ callback n ty (c_id k) /\ argument n ty a (c_arg k) /\ extra_ok n ty left k /\ c_ix k = ix
  end.
Proof.
  intros h past n cb a ix extra ty left T C X. unfold argument, callback, extra_ok. destruct (n_type n) eqn:NT; try (destruct T; discriminate).
  - destruct ty; cbn [exec_query] in *.
    + destruct a as [[p|]|s|vs]; [right|left|right|right]; try (eexists; split; [reflexivity|]; cbn; split; [reflexivity|]; split; [exact C|]; split; [split; [discriminate|reflexivity]|]; split; [discriminate|reflexivity]).
      split; [reflexivity|]. split; [reflexivity|]. intros a' (W & _). contradiction.
    + destruct a as [[p|]|s|vs].
      * right. eexists; split; [reflexivity|]; cbn; split; [reflexivity|]; split; [exact C|]; split; [reflexivity|]; split; [discriminate|reflexivity].
      * left. split; [reflexivity|]. split; [reflexivity|]. intros a' [].
      * destruct (parse_args (n_arg n) s) as [vs|] eqn:P; [right|left].
        -- eexists; split; [reflexivity|]; cbn; split; [reflexivity|]; split; [exact C|]; split; [exists vs; split; [apply args_spec; exact P|reflexivity]|]; split; [discriminate|reflexivity].
        -- split; [reflexivity|]. split; [reflexivity|]. intros a' (vs & W & _). apply args_spec in W. congruence.
      * right. eexists; split; [reflexivity|]; cbn; split; [reflexivity|]; split; [exact C|]; split; [reflexivity|]; split; [discriminate|reflexivity].
    + right. eexists; split; [reflexivity|]; cbn; split; [reflexivity|]; split; [exact C|]; split; [reflexivity|]; split; [discriminate|reflexivity].
    + right. eexists; split; [reflexivity|]; cbn; split; [reflexivity|]; split; [exact C|]; split; [reflexivity|]; split; [discriminate|reflexivity].
  - cbn [exec_query]. right. eexists; split; [reflexivity|]. cbn [run_cb c_id c_arg c_type c_extra c_ix]. split; [reflexivity|]. split; [exact C|]. split; [destruct ty; reflexivity|]. split; [|reflexivity]. intros _. split; [reflexivity|]. exists extra. auto.
Qed.
Lemma node_spec : forall h past a ix name ty n off (P : node -> list str -> Prop), (exists left, P n left /\ (left <> [] -> words "." (skipn (Z.to_nat off) name) = left)) -> (forall m l, P m l -> m = n) ->
  match (let kind := match n_type n with Subtree => QSubtree | _ => ty end in
      match n_type n, n_cb n kind with
      | (Leaf | Subtree), Some cb => exec_query h past n cb a ix (skipn (Z.to_nat off) name) kind ty
      | _, _ => Ans (-1) []
      end) with
  | ACrash => False
  | Ans r log => (log = [] /\ r = -1 /\ ~ exists n l cb a', P n l /\ callback n ty cb /\ argument n ty a a') \/
      exists k n l, log = [k] /\ r = h past k /\ P n l /\ callback n ty (c_id k) /\ argument n ty a (c_arg k) /\ extra_ok n ty l k /\ c_ix k = ix
  end.
Proof.
  intros h past a ix name ty n off P (left & PL & X) U. cbv zeta.
  assert (NONE : (n_type n = Leaf \/ n_type n = Subtree -> n_cb n (match n_type n with Subtree => QSubtree | _ => ty end) = None) -> ~ exists n l cb a', P n l /\ callback n ty cb /\ argument n ty a a').
  { intros Q (m & l & cb & a' & PM & CM & _). rewrite (U m l PM) in CM. unfold callback in CM. destruct (n_type n) eqn:T; try contradiction; rewrite Q in CM; auto; discriminate. }
  pose proof (fun cb => exec_spec h past n cb a ix (skipn (Z.to_nat off) name) ty left) as ES.
  assert (DO : forall cb, (n_type n = Leaf \/ n_type n = Subtree) -> n_cb n (match n_type n with Subtree => QSubtree | _ => ty end) = Some cb ->
    match exec_query h past n cb a ix (skipn (Z.to_nat off) name) (match n_type n with Subtree => QSubtree | _ => ty end) ty with
    | ACrash => False
    | Ans r log => (log = [] /\ r = -1 /\ ~ exists n l cb a', P n l /\ callback n ty cb /\ argument n ty a a') \/
        exists k n l, log = [k] /\ r = h past k /\ P n l /\ callback n ty (c_id k) /\ argument n ty a (c_arg k) /\ extra_ok n ty l k /\ c_ix k = ix
    end).
  { intros cb T C. specialize (ES cb T C X). destruct (exec_query h past n cb a ix _ _ ty) as [|r log]; [exact ES|]. destruct ES as [(-> & -> & N)|(k & -> & -> & E1 & E2 & E3 & E4)].
    - left. split; [reflexivity|]. split; [reflexivity|]. intros (m & l & cb' & a' & PM & _ & AM). rewrite (U m l PM) in AM. exact (N a' AM).
    - right. exists k, n, left. auto 10. }
  destruct (n_type n) eqn:T; [| | |].
  - left. split; [reflexivity|]. split; [reflexivity|]. apply NONE. intros [W|W]; discriminate.
  - destruct (n_cb n ty) as [cb|] eqn:C; [apply (DO cb); auto|]. left. split; [reflexivity|]. split; [reflexivity|]. apply NONE. auto.
  - left. split; [reflexivity|]. split; [reflexivity|]. apply NONE. intros [W|W]; discriminate.
  - destruct (n_cb n QSubtree) as [cb|] eqn:C; [apply (DO cb); auto|]. left. split; [reflexivity|]. split; [reflexivity|]. apply NONE. auto.
Qed.

Lemma query_spec : forall globals ctl h past a name ty,
  match query globals ctl h past a name ty with ACrash => strays globals ctl name | Ans r log => asks globals ctl h past a name ty r log end.
Proof.
  intros globals ctl h past a name ty. unfold query, asks. pose proof (find_spec globals name) as F. destruct (find_node globals name) as (f & ix0). cbn [fst] in F.
  assert (GO : forall f ix, spec_found globals name f -> (f = Missing -> ctl = None) ->
    match (match f with Crash => ACrash | Missing => Ans (-1) [] | Found n off =>
      let kind := match n_type n with Subtree => QSubtree | _ => ty end in
      match n_type n, n_cb n kind with (Leaf | Subtree), Some cb => exec_query h past n cb a ix (skipn (Z.to_nat off) name) kind ty | _, _ => Ans (-1) [] end end) with
    | ACrash => strays globals ctl name
    | Ans r log =>
      (log = [] /\ r = -1 /\ ~ exists n l cb a', resolved globals ctl name n l /\ callback n ty cb /\ argument n ty a a') \/
      exists k n l, log = [k] /\ r = h past k /\ resolved globals ctl name n l /\ callback n ty (c_id k) /\ argument n ty a (c_arg k) /\ extra_ok n ty l k
    end).
  { clear f ix0 F. intros f ix F CN. destruct f as [n off| |]; cbn [spec_found] in F.
    - destruct F as (left & R & X). assert (U : forall m l, resolved globals ctl name m l -> m = n) by (intros m l [Q|(Q & _)]; [symmetry; exact (proj1 (reach_det _ _ _ _ R _ _ Q))|exfalso; apply Q; exists n, left; exact R]).
      pose proof (node_spec h past a ix name ty n off (resolved globals ctl name) (ex_intro _ left (conj (or_introl R) X)) U) as NS. cbv zeta in NS |- *.
      destruct (match n_type n, n_cb n _ with (Leaf | Subtree), Some cb => _ | _, _ => _ end) as [|r log]; [destruct NS|]. destruct NS as [NS|(k & m & l & E1 & E2 & E3 & E4 & E5 & E6 & _)]; [left; exact NS|right; exists k, m, l; auto 10].
    - left. split; [reflexivity|]. split; [reflexivity|]. rewrite (CN eq_refl). intros (n & l & cb & a' & [R|(_ & root & W & _)] & _); [exact (proj1 F n l R)|discriminate].
    - left. exact F. }
  destruct f as [n off| |].
  - replace (match ctl with Some _ => (Found n off, [zero_entry]) | None => (Found n off, [zero_entry]) end) with (Found n off, [zero_entry]) by (destruct ctl; reflexivity). apply (GO (Found n off) [zero_entry] F). discriminate.
  - destruct ctl as [root|]; [|apply (GO Missing [zero_entry] F); reflexivity]. pose proof (find_spec root name) as G. destruct (find_node root name) as (f & ix1). cbn [fst] in *. cbn [spec_found] in F. destruct F as (F1 & F2).
    assert (RS : forall m l, resolved globals (Some root) name m l <-> reach root (words "." name) m l).
    { intros m l. split; [intros [Q|(_ & root' & E & Q)]; [exfalso; exact (F1 m l Q)|injection E as <-; exact Q]|]. intros Q. right. split; [intros (m' & l' & W); exact (F1 m' l' W)|]. exists root. auto. }
    destruct f as [n off| |]; cbn [spec_found] in G.
    + destruct G as (left & R & X). assert (U : forall m l, resolved globals (Some root) name m l -> m = n) by (intros m l Q; apply RS in Q; symmetry; exact (proj1 (reach_det _ _ _ _ R _ _ Q))).
      pose proof (node_spec h past a [] name ty n off (resolved globals (Some root) name) (ex_intro _ left (conj (proj2 (RS n left) R) X)) U) as NS. cbv zeta in NS |- *.
      destruct (match n_type n, n_cb n _ with (Leaf | Subtree), Some cb => _ | _, _ => _ end) as [|r log]; [destruct NS|]. destruct NS as [NS|(k & m & l & E1 & E2 & E3 & E4 & E5 & E6 & _)]; [left; exact NS|right; exists k, m, l; auto 10].
    + left. split; [reflexivity|]. split; [reflexivity|]. intros (n & l & cb & a' & R & _). apply RS in R. exact (proj1 G n l R).
    + right. exists root. auto.
  - replace (match ctl with Some _ => (Crash, [zero_entry]) | None => (Crash, [zero_entry]) end) with (Crash, [zero_entry]) by (destruct ctl; reflexivity). apply (GO Crash [zero_entry] F). discriminate.
Qed.
Lemma query_safe : forall globals ctl h past a name ty, ~ strays globals ctl name -> query globals ctl h past a name ty <> ACrash.
Proof. intros globals ctl h past a name ty N E. pose proof (query_spec globals ctl h past a name ty) as Q. rewrite E in Q. exact (N Q). Qed.
(* the index entries of the name never reach the callback *)
Lemma query_indexes : forall globals ctl h past a name ty r k, query globals ctl h past a name ty = Ans r [k] -> c_ix k = [zero_entry] \/ c_ix k = [].
Proof.
  intros globals ctl h past a name ty r k Q. unfold query in Q.
  destruct (match find_node globals name, ctl with (Missing, _), Some root => (fst (find_node root name), []) | (f, _), _ => (f, [zero_entry]) end) as (f & ix) eqn:E.
  assert (IX : ix = [zero_entry] \/ ix = []) by (destruct (find_node globals name) as ([n off| |] & ix0), ctl as [root|]; injection E as _ <-; auto).
  destruct f as [n off| |]; try discriminate. cbv zeta in Q.
  assert (EX : forall cb kind, exec_query h past n cb a ix (skipn (Z.to_nat off) name) kind ty = Ans r [k] -> c_ix k = ix).
  { intros cb kind W. destruct kind; cbn [exec_query] in W; unfold run_cb in W.
    - destruct a as [[p|]|s|vs]; try discriminate; injection W as _ <-; reflexivity.
    - destruct a as [[p|]|s|vs]; try discriminate; try (injection W as _ <-; reflexivity). destruct (parse_args (n_arg n) s); [|discriminate]. injection W as _ <-. reflexivity.
    - injection W as _ <-. reflexivity.
    - injection W as _ <-. reflexivity. }
  destruct (n_type n); try discriminate; [destruct (n_cb n ty) as [cb|]|destruct (n_cb n QSubtree) as [cb|]]; try discriminate; rewrite (EX _ _ Q); exact IX.
Qed.

(* ---- configurations ---- *)
Lemma pair_iff : forall q n v, parse_query q = Some (n, v) <-> pair_of q n v.
Proof.
  intros q n v. unfold parse_query, pair_of. rewrite tokens_words. destruct (words "=" q) as [|a [|b [|c l]]]; split; intros E; try discriminate; injection E as -> ->; reflexivity.
Qed.
Lemma load_spec : forall globals ctl h qs past r log, load_loop globals ctl h true past qs = Ans r log -> runs globals ctl h past qs r log.
Proof.
  intros globals ctl h qs. induction qs as [|q qs IH]; cbn [load_loop]; intros past r log E; [injection E as <- <-; apply ru_end|].
  destruct (parse_query q) as [(n & v)|] eqn:P.
  - apply pair_iff in P. destruct (query globals ctl h past (AText v) n QWrite) as [|r1 l1] eqn:Q; [discriminate|]. pose proof (query_spec globals ctl h past (AText v) n QWrite) as AS. rewrite Q in AS. destruct (r1 <? 0) eqn:N; cbn [andb] in E.
    + injection E as <- <-. apply Z.ltb_lt in N. eapply ru_fail; eassumption.
    + apply Z.ltb_ge in N. eapply ru_next; [exact P|exact AS|exact N|]. apply IH. exact E.
  - injection E as <- <-. apply ru_bad. intros (n & v & W). apply pair_iff in W. congruence.
Qed.
Lemma load_crash : forall globals ctl h ctx qs past, load_loop globals ctl h ctx past qs = ACrash -> exists q n v, In q qs /\ pair_of q n v /\ strays globals ctl n.
Proof.
  intros globals ctl h ctx qs. induction qs as [|q qs IH]; cbn [load_loop]; intros past E; [discriminate|].
  destruct (parse_query q) as [(n & v)|] eqn:P; [|discriminate]. apply pair_iff in P. destruct (query globals ctl h past (AText v) n QWrite) as [|r1 l1] eqn:Q.
  - exists q, n, v. split; [left; reflexivity|]. split; [exact P|]. pose proof (query_spec globals ctl h past (AText v) n QWrite) as S. rewrite Q in S. exact S.
  - destruct ((r1 <? 0) && ctx); [discriminate|]. destruct (IH _ E) as (q' & n' & v' & I & R). exists q', n', v'. split; [right; exact I|exact R].
Qed.
Lemma config_spec : forall globals ctl h buf r log, load_config globals ctl h true buf = Ans r log -> runs globals ctl h [] (words ";" buf) r log.
Proof. intros globals ctl h buf r log E. unfold load_config in E. rewrite tokens_words in E. exact (load_spec _ _ _ _ _ _ _ E). Qed.
Lemma config_crash : forall globals ctl h ctx buf, load_config globals ctl h ctx buf = ACrash -> exists q n v, In q (words ";" buf) /\ pair_of q n v /\ strays globals ctl n.
Proof. intros globals ctl h ctx buf E. unfold load_config in E. rewrite tokens_words in E. exact (load_crash _ _ _ _ _ _ E). Qed.
(* result 0 exactly if every pair ran well *)
Lemma runs_zero : forall globals ctl h past qs r log, runs globals ctl h past qs r log -> r = 0 \/ r = -1.
Proof. intros globals ctl h past qs r log R. induction R; auto. Qed.

(* ---- the public interface on an OS provider ---- *)
Lemma first_cons : forall w m ns n, n_type m <> Indexed -> first_named w (m :: ns) n <-> (n = m /\ n_name m = w) \/ (n_name m <> w /\ first_named w ns n).
Proof.
  intros w m ns n T. assert (NM : named w m <-> n_name m = w) by (unfold named; split; [intros [(_ & W)|W]; [contradiction|exact W]|auto]). split.
  - intros (pre & post & E & N & P). destruct pre as [|x pre]; cbn in E; injection E as <- ->.
    + left. split; [reflexivity|]. apply NM. exact N.
    + right. split; [intros W; apply (P m); [left; reflexivity|apply NM; exact W]|]. exists pre, post. split; [reflexivity|]. split; [exact N|]. intros m' I. apply P. right. exact I.
  - intros [(-> & N)|(N & pre & post & -> & N' & P)].
    + exists [], ns. split; [reflexivity|]. split; [apply NM; exact N|intros m' []].
    + exists (m :: pre), post. split; [reflexivity|]. split; [exact N'|]. intros m' [<-|I]; [intros W; apply N; apply NM; exact W|exact (P m' I)].
Qed.
Lemma first_nil : forall w n, ~ first_named w [] n.
Proof. intros w n (pre & post & E & _). destruct pre; discriminate. Qed.
Definition handle_node : node := Node (s_ "by_handle") Subtree (only QSubtree 1) [] None.
Definition provider_node : node := child "provider" [handle_node].
Definition pool_node : node := child "pool" [Node (s_ "by_handle") Subtree (only QSubtree 2) [] None].
Lemma handle_reach : forall path, path <> [] -> reach global_tree (s_ "umf" :: s_ "provider" :: s_ "by_handle" :: path) handle_node path.
Proof.
  intros path NE. unfold global_tree. eapply re_down; [apply first_cons; [discriminate|left; split; reflexivity]|discriminate|reflexivity|].
  eapply re_down; [apply first_cons; [discriminate|left; split; reflexivity]|discriminate|reflexivity|]. apply re_subtree; [apply first_cons; [discriminate|left; split; reflexivity]|reflexivity|exact NE].
Qed.
Lemma global_head : forall ws n l, reach global_tree ws n l -> hd_error ws = Some (s_ "umf").
Proof. intros ws n l R. unfold global_tree in R. inversion R as [ns w m F|ns w m rest F T NE|ns w m rest ns' m' left F T C R']; subst; cbn [hd_error]; apply first_cons in F; try discriminate; destruct F as [(_ & F)|(_ & F)]; try (destruct (first_nil _ _ F)); rewrite <- F; reflexivity. Qed.
Lemma global_beyond : forall ws, beyond global_tree ws -> hd_error ws = Some (s_ "umf").
Proof. intros ws R. unfold global_tree in R. inversion R as [ns w m rest F T C NE|ns w m rest ns' F T C R']; subst; cbn [hd_error]; apply first_cons in F; try discriminate; destruct F as [(_ & F)|(_ & F)]; try (destruct (first_nil _ _ F)); rewrite <- F; reflexivity. Qed.
Lemma os_reach : forall ws ty cb, (exists n l, reach os_tree ws n l /\ callback n ty cb) <-> serves ty ws cb.
Proof.
  intros ws ty cb. split.
  - intros (n & l & R & C). unfold os_tree in R. unfold serves.
    inversion R as [ns w m F|ns w m rest F T NE|ns w m rest ns' m' left F T CH R']; subst.
    + apply first_cons in F; [|discriminate]. destruct F as [(-> & _)|(_ & F)]; [destruct C|]. apply first_cons in F; [|discriminate]. destruct F as [(-> & _)|(_ & F)]; [destruct C|destruct (first_nil _ _ F)].
    + apply first_cons in F; [|discriminate]. destruct F as [(-> & _)|(_ & F)]; [discriminate|]. apply first_cons in F; [|discriminate]. destruct F as [(-> & _)|(_ & F)]; [discriminate|destruct (first_nil _ _ F)].
    + assert (ONE : forall ws' nm k c, ws' = [s_ nm] -> callback (Node (s_ nm) Leaf (only k c) [] None) ty cb -> ty = k /\ cb = c).
      { clear. intros ws' nm k c _ C. unfold callback in C. cbn [n_type n_cb] in C. destruct k, ty; cbn in C; try discriminate; injection C as <-; auto. }
      apply first_cons in F; [|discriminate]. destruct F as [(-> & <-)|(_ & F)]; [|apply first_cons in F; [|discriminate]; destruct F as [(-> & <-)|(_ & F)]; [|destruct (first_nil _ _ F)]]; cbn [n_name child] in *; cbn [n_children child] in CH; injection CH as <-.
      * inversion R' as [ns w m F|ns w m rest' F T' NE|ns w m rest' ns' m2 left' F T' CH R2]; subst; apply first_cons in F; try discriminate; destruct F as [(-> & <-)|(_ & F)]; try (destruct (first_nil _ _ F)); try discriminate.
        destruct (ONE _ "ipc_enabled"%string QRead 10 eq_refl C) as (-> & ->). left. auto.
      * inversion R' as [ns w m F|ns w m rest' F T' NE|ns w m rest' ns' m2 left' F T' CH R2]; subst; (apply first_cons in F; [|discriminate]; destruct F as [(-> & <-)|(_ & F)]; [try discriminate|apply first_cons in F; [|discriminate]; destruct F as [(-> & <-)|(_ & F)]; [try discriminate|apply first_cons in F; [|discriminate]; destruct F as [(-> & <-)|(_ & F)]; [try discriminate|destruct (first_nil _ _ F)]]]).
        -- destruct (ONE _ "allocated_memory"%string QRead 11 eq_refl C) as (-> & ->). right. left. auto.
        -- destruct (ONE _ "peak_memory"%string QRead 12 eq_refl C) as (-> & ->). right. right. left. auto.
        -- destruct (ONE _ "reset"%string QRunnable 13 eq_refl C) as (-> & ->). right. right. right. auto.
  - intros [(-> & -> & ->)|[(-> & -> & ->)|[(-> & -> & ->)|(-> & -> & ->)]]]; unfold os_tree.
    + exists (leaf_ro "ipc_enabled" 10), []. split; [|reflexivity]. eapply re_down; [apply first_cons; [discriminate|left; split; reflexivity]|discriminate|reflexivity|]. apply re_last. apply first_cons; [discriminate|left; split; reflexivity].
    + exists (leaf_ro "allocated_memory" 11), []. split; [|reflexivity]. eapply re_down; [apply first_cons; [discriminate|right; split; [discriminate|apply first_cons; [discriminate|left; split; reflexivity]]]|discriminate|reflexivity|]. apply re_last. apply first_cons; [discriminate|left; split; reflexivity].
    + exists (leaf_ro "peak_memory" 12), []. split; [|reflexivity]. eapply re_down; [apply first_cons; [discriminate|right; split; [discriminate|apply first_cons; [discriminate|left; split; reflexivity]]]|discriminate|reflexivity|]. apply re_last. apply first_cons; [discriminate|right; split; [discriminate|apply first_cons; [discriminate|left; split; reflexivity]]].
    + exists (leaf_run "reset" 13), []. split; [|reflexivity]. eapply re_down; [apply first_cons; [discriminate|right; split; [discriminate|apply first_cons; [discriminate|left; split; reflexivity]]]|discriminate|reflexivity|]. apply re_last. apply first_cons; [discriminate|right; split; [discriminate|apply first_cons; [discriminate|right; split; [discriminate|apply first_cons; [discriminate|left; split; reflexivity]]]]].
Qed.
Lemma api_spec : forall inner ty name path p, handle_path name path -> path <> [] -> hd_error path <> Some (s_ "umf") ->
  (forall cb, serves ty path cb -> exists k, umf_ctl inner ty (Some name) true (Some p) = Api SUCCESS [k] /\ c_id k = cb /\ c_arg k = APtr (Some p)) /\
  ((forall cb, ~ serves ty path cb) -> umf_ctl inner ty (Some name) true (Some p) = Api SUCCESS [] \/ (umf_ctl inner ty (Some name) true (Some p) = ApiCrash /\ beyond os_tree path)).
Proof.
  intros inner ty name path p HP NE HD. pose proof (handle_reach path NE) as R. unfold handle_path in HP. rewrite <- HP in R.
  pose proof (query_spec global_tree None (fun _ _ => 0) [] (APtr (Some p)) name ty) as Q. unfold umf_ctl.
  destruct (query global_tree None (fun _ _ => 0) [] (APtr (Some p)) name ty) as [|r log].
  { exfalso. destruct Q as [B|(root & W & _)]; [|discriminate]. exact (reach_beyond _ _ _ _ R B). }
  assert (RES : resolved global_tree None name handle_node path) by (left; exact R).
  assert (U : forall n l, resolved global_tree None name n l -> n = handle_node /\ l = path).
  { intros n l [W|(W & _)]; [destruct (reach_det _ _ _ _ R _ _ W) as (<- & <-); auto|]. exfalso. apply W. exists handle_node, path. exact R. }
  destruct Q as [(_ & _ & N)|(k & n & l & -> & -> & RN & CB & AR & EX)]; [exfalso; apply N; exists handle_node, path, 1, (APtr (Some p)); split; [exact RES|]; split; [reflexivity|destruct ty; reflexivity]|].
  destruct (U _ _ RN) as (-> & ->). destruct (EX eq_refl) as (TY & e & CE & WE). specialize (WE NE). destruct k as [id ca ix ce ct]. cbn [c_type c_extra c_id c_arg] in *. subst ce ct. cbn in CB. injection CB as <-. assert (AA : ca = APtr (Some p)) by (destruct ty; exact AR). subst ca. cbn [Z.eqb].
  pose proof (query_spec global_tree (Some os_tree) inner [] (APtr (Some p)) e ty) as Q.
  assert (NG : forall n l, ~ reach global_tree (words "." e) n l) by (intros n l W; rewrite WE in W; apply global_head in W; contradiction).
  assert (RS : forall n l, resolved global_tree (Some os_tree) e n l <-> reach os_tree path n l).
  { intros n l. rewrite <- WE. split; [intros [W|(_ & root & E & W)]; [destruct (NG _ _ W)|injection E as <-; exact W]|]. intros W. right. split; [intros (n' & l' & W'); exact (NG _ _ W')|]. exists os_tree. auto. }
  assert (ARG : forall n cb, callback n ty cb -> argument n ty (APtr (Some p)) (APtr (Some p))).
  { intros n cb W. unfold callback in W. unfold argument. destruct (n_type n); try contradiction; destruct ty; try reflexivity. split; [discriminate|reflexivity]. }
  destruct (query global_tree (Some os_tree) inner [] (APtr (Some p)) e ty) as [|r2 log2].
  - assert (B : beyond os_tree path). { destruct Q as [B|(root & E & B)]; [exfalso; rewrite WE in B; apply global_beyond in B; contradiction|]. injection E as <-. rewrite WE in B. exact B. }
    split; [|intros _; right; auto]. intros cb S. exfalso. apply os_reach in S. destruct S as (n & l & RO & _). exact (reach_beyond _ _ _ _ RO B).
  - destruct Q as [(-> & _ & N)|(k & n & l & -> & _ & RN2 & CB & AR2 & _)].
    + split; [|intros _; left; reflexivity]. intros cb S. exfalso. apply os_reach in S. destruct S as (n & l & RO & C). apply N. exists n, l, cb, (APtr (Some p)). split; [apply RS; exact RO|]. split; [exact C|]. exact (ARG n cb C).
    + apply RS in RN2. assert (S : serves ty path (c_id k)) by (apply os_reach; exists n, l; auto). split; [|intros W; destruct (W _ S)]. intros cb S'.
      assert (cb = c_id k) as ->. { apply os_reach in S'. destruct S' as (n' & l' & R' & C'). destruct (reach_det _ _ _ _ RN2 _ _ R') as (<- & _). clear - CB C'. unfold callback in *. destruct (n_type n); try contradiction; congruence. }
      assert (GE : c_id k <? 10 = false) by (clear - S; apply Z.ltb_ge; destruct S as [(_ & _ & ->)|[(_ & _ & ->)|[(_ & _ & ->)|(_ & _ & ->)]]]; lia). cbn [existsb orb]. rewrite GE. exists k. split; [reflexivity|]. split; [reflexivity|].
      clear - AR2 CB. unfold argument, callback in *. destruct (n_type n); try contradiction; destruct ty; cbn in AR2; intuition.
Qed.

(* ---- configuration files ---- *)
Lemma newline_iff : forall c, (code c =? 10) = Ascii.eqb c (ascii_of_nat 10).
Proof.
  intros c. unfold code. destruct (Ascii.eqb c (ascii_of_nat 10)) eqn:E.
  - apply Ascii.eqb_eq in E. subst c. reflexivity.
  - apply Ascii.eqb_neq in E. apply Z.eqb_neq. intros X. apply E. rewrite <- (ascii_nat_embedding c). f_equal. lia.
Qed.
Lemma split_step : forall sep c s, split sep (c :: s) = if Ascii.eqb c sep then [] :: split sep s else (c :: hd [] (split sep s)) :: tl (split sep s).
Proof. intros sep c s. cbn [split]. destruct (split_cons sep s) as (p & ps & ->). reflexivity. Qed.
Lemma sanitize_lines : forall s, sanitize s false = file_text s /\ sanitize s true = List.concat (map line_text (tl (split (ascii_of_nat 10) s))).
Proof.
  unfold file_text. induction s as [|c s [IH1 IH2]]; [split; reflexivity|].
  rewrite split_step. cbn [sanitize]. rewrite newline_iff. unfold aeqb. set (L := split (ascii_of_nat 10) s) in *.
  assert (LE : L = hd [] L :: tl L) by (unfold L; destruct (split_cons (ascii_of_nat 10) s) as (p & ps & ->); reflexivity).
  destruct (Ascii.eqb c "#") eqn:H.
  - apply Ascii.eqb_eq in H. subst c. change (Ascii.eqb "#" (ascii_of_nat 10)) with false. cbn [tl map List.concat].
    split; [|exact IH2]. rewrite IH2. unfold line_text at 2. rewrite split_step. reflexivity.
  - destruct (Ascii.eqb c (ascii_of_nat 10)) eqn:N.
    + cbn [tl map List.concat]. split; [rewrite IH1; reflexivity|exact IH1].
    + cbn [tl map List.concat negb andb]. split; [|exact IH2].
      assert (X : line_text (c :: hd [] L) = if is_space c then line_text (hd [] L) else c :: line_text (hd [] L)).
      { unfold line_text. rewrite split_step, H. cbn [hd filter]. destruct (is_space c); reflexivity. }
      assert (LC : List.concat (map line_text L) = line_text (hd [] L) ++ List.concat (map line_text (tl L))) by (rewrite LE at 1; reflexivity).
      rewrite X, IH1, LC. destruct (is_space c); reflexivity.
Qed.
Lemma c_string_all : forall s, (forall c, In c s -> code c <> 0) -> c_string s = s.
Proof.
  induction s as [|c s IH]; intros H; [reflexivity|]. cbn [c_string]. replace (code c =? 0) with false by (specialize (H c (or_introl eq_refl)); lia).
  rewrite IH; [reflexivity|]. intros x Hx. apply H. right. exact Hx.
Qed.
Lemma file_text_in : forall s c, In c (file_text s) -> In c s.
Proof.
  intros s c. rewrite <- (proj1 (sanitize_lines s)). generalize false. induction s as [|x s IH]; intros b H; [destruct H|].
  cbn [sanitize] in H. destruct (aeqb x "#"); [right; exact (IH _ H)|]. destruct (code x =? 10); [right; exact (IH _ H)|].
  destruct (negb b && negb (is_space x)); [destruct H as [<- | H]; [left; reflexivity|]|]; right; exact (IH _ H).
Qed.
Lemma file_spec : forall globals ctl h ctx s, (forall c, In c s -> code c <> 0) -> Z.of_nat (List.length s) <= 2 ^ 20 ->
  load_file globals ctl h ctx true (Some s) = load_config globals ctl h ctx (file_text s).
Proof.
  intros globals ctl h ctx s Z0 L. unfold load_file, MAX_CONFIG_FILE_LEN. replace (2 ^ 20 <? Z.of_nat (List.length s)) with false by lia. cbn [orb negb].
  rewrite (proj1 (sanitize_lines s)), c_string_all; [reflexivity|]. intros c Hc. apply Z0, file_text_in, Hc.
Qed.
(* ---- names that lead nowhere ---- *)
Lemma api_unknown : forall inner ty name p, ~ strays global_tree None name ->
  ~ (exists n l cb, resolved global_tree None name n l /\ callback n ty cb) -> umf_ctl inner ty (Some name) true (Some p) = Api ERR_UNKNOWN [].
Proof.
  intros inner ty name p NS N. unfold umf_ctl. pose proof (query_spec global_tree None (fun _ _ => 0) [] (APtr (Some p)) name ty) as Q.
  destruct (query global_tree None (fun _ _ => 0) [] (APtr (Some p)) name ty) as [|r log]; [contradiction|].
  destruct Q as [(-> & -> & _) | (k & n & l & _ & _ & R & C & _)]; [reflexivity|]. exfalso. apply N. eauto.
Qed.
