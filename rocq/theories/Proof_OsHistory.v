From Verif Require Import Base Model_Utils Spec_Utils Proof_Utils Model_OsNuma Model_OsProvider Spec_OsProvider Proof_OsProvider.
From Coq Require Import Permutation.

Definition clear_of (page : Z) (b c : block) : Prop := fst b + up page (snd b) <= fst c \/ fst c + up page (snd c) <= fst b.
Lemma clear_sym : forall page b c, clear_of page b c -> clear_of page c b.
Proof. unfold clear_of. intros. tauto. Qed.
Lemma ford_perm : forall (R : block -> block -> Prop), (forall a b, R a b -> R b a) -> forall l l', Permutation l l' -> ForallOrdPairs R l -> ForallOrdPairs R l'.
Proof.
  intros R SY l l' P. induction P; intros F.
  - constructor.
  - inversion F; subst. constructor; [|auto]. rewrite Forall_forall in *. intros y Y. apply H1. eapply Permutation_in; [apply Permutation_sym, P|exact Y].
  - inversion F as [|? ? F1 F2]; subst. inversion F2 as [|? ? F3 F4]; subst. inversion F1; subst. constructor; [constructor; auto|]. constructor; assumption.
  - auto.
Qed.
Lemma sizes_perm : forall l l', Permutation l l' -> sizes l = sizes l'.
Proof. intros l l' P. unfold sizes. induction P; cbn [fold_right]; lia. Qed.

(* disjoint blocks below 2^63 have less than 2^63 bytes *)
Lemma sizes_split : forall p l, sizes l = sizes (filter (fun b => fst b <? p) l) + sizes (filter (fun b => negb (fst b <? p)) l).
Proof. intros p l. induction l as [|b l IH]; [reflexivity|]. cbn [filter]. destruct (fst b <? p); cbn [negb]; unfold sizes in *; cbn [fold_right]; lia. Qed.
Lemma ford_filt : forall (R : block -> block -> Prop) f l, ForallOrdPairs R l -> ForallOrdPairs R (filter f l).
Proof.
  intros R f l F. induction F as [|b l H F IH]; [constructor|]. cbn [filter]. destruct (f b); [|exact IH]. constructor; [|exact IH].
  rewrite Forall_forall in *. intros x X. apply filter_In in X. apply H, X.
Qed.
Lemma filter_len : forall (f : block -> bool) l, (length (filter f l) <= length l)%nat.
Proof. intros f l. induction l as [|b l IH]; [constructor|]. cbn [filter]. destruct (f b); cbn [length]; lia. Qed.
Lemma sizes_bound : forall page n l lo hi, 0 < page -> (length l <= n)%nat -> ForallOrdPairs (clear_of page) l ->
  (forall b, In b l -> 0 < snd b /\ lo <= fst b /\ fst b + up page (snd b) <= hi) -> lo <= hi -> sizes l <= hi - lo.
Proof.
  intros page n. induction n as [|n IH]; intros l lo hi P LN F W LH.
  { destruct l; [cbn; lia|cbn in LN; lia]. }
  destruct l as [|b l]; [cbn; lia|]. inversion F as [|? ? FB FL]; subst. rewrite Forall_forall in FB.
  destruct (W b) as (B1 & B2 & B3); [left; reflexivity|]. destruct (up_spec page (snd b) P) as [_ UB].
  change (sizes (b :: l)) with (snd b + sizes l). rewrite (sizes_split (fst b)).
  assert (X : sizes (filter (fun c => fst c <? fst b) l) <= fst b - lo).
  { apply IH; [exact P|eapply Nat.le_trans; [apply filter_len|]; cbn [length] in LN; clear - LN; lia|apply ford_filt, FL| |lia].
    intros c C. apply filter_In in C. destruct C as [C C']. cbv beta in C'. destruct (W c) as (C1 & C2 & C3); [right; exact C|]. do 2 (split; [assumption|]).
    destruct (FB _ C) as [D|D]; [lia|exact D]. }
  assert (Y : sizes (filter (fun c => negb (fst c <? fst b)) l) <= hi - (fst b + up page (snd b))).
  { apply IH; [exact P|eapply Nat.le_trans; [apply filter_len|]; cbn [length] in LN; clear - LN; lia|apply ford_filt, FL| |lia].
    intros c C. apply filter_In in C. destruct C as [C C']. cbv beta in C'. destruct (W c) as (C1 & C2 & C3); [right; exact C|]. split; [exact C1|]. split; [|exact C3].
    destruct (FB _ C) as [D|D]; [exact D|]. destruct (up_spec page (snd c) P) as [_ UC]. lia. }
  lia.
Qed.

Record Inv (page : Z) (strict : bool) (w : world) : Prop := {
  v_fd : o_fd (w_os w) = true -> 0 <= o_size (w_os w) <= o_max (w_os w) /\ o_max (w_os w) < 2 ^ 63;
  v_wf : forall b, In b (w_live w) -> 0 < snd b /\ 0 < fst b /\ fst b mod page = 0 /\ fst b + up page (snd b) <= 2 ^ 63;
  v_dis : ForallOrdPairs (clear_of page) (w_live w);
  v_map : forall x, covered page (w_live w) x -> exists k, w_mem w x = Some k /\
    if o_fd (w_os w) then exists o, k = File o /\ 0 <= o < up page (o_size (w_os w)) else k = Anon;
  v_inj : forall x y o, covered page (w_live w) x -> covered page (w_live w) y -> w_mem w x = Some (File o) -> w_mem w y = Some (File o) -> x = y;
  v_sum : o_allocated (w_os w) = sizes (w_live w);
  v_keys : o_fd (w_os w) = true -> forall k v, map_get (o_map (w_os w)) k = Some v -> exists n, In (k, n) (w_live w);
  v_strict : strict = true -> o_fd (w_os w) = true -> forall b, In b (w_live w) ->
    exists o, 0 <= o < 2 ^ 63 /\ o mod page = 0 /\ map_get (o_map (w_os w)) (fst b) = Some (o + 1) /\ forall x, within page (fst b) (snd b) x = true -> w_mem w x = Some (File (o + (x - fst b)))
}.
Arguments v_fd {_ _ _} _.
Arguments v_wf {_ _ _} _.
Arguments v_dis {_ _ _} _.
Arguments v_map {_ _ _} _.
Arguments v_inj {_ _ _} _.
Arguments v_sum {_ _ _} _.
Arguments v_keys {_ _ _} _.
Arguments v_strict {_ _ _} _.

Lemma covered_perm : forall page l l' x, Permutation l l' -> covered page l x -> covered page l' x.
Proof. intros page l l' x P (b & B & W). exists b. split; [eapply Permutation_in; eassumption|exact W]. Qed.
Lemma inv_perm : forall page strict s m l l', Permutation l l' -> Inv page strict (World s m l) -> Inv page strict (World s m l').
Proof.
  intros page strict s m l l' P [V1 V2 V3 V4 V5 V6 V7 V8]. cbn [w_os w_mem w_live] in *. pose proof (Permutation_sym P) as P'.
  split; cbn [w_os w_mem w_live].
  - exact V1.
  - intros b B. apply V2. eapply Permutation_in; eassumption.
  - eapply ford_perm; [intros; now apply clear_sym|exact P|exact V3].
  - intros x X. apply V4. eapply covered_perm; eassumption.
  - intros x y o X Y. apply V5; eapply covered_perm; eassumption.
  - rewrite V6. apply sizes_perm, P.
  - intros F k v K. destruct (V7 F k v K) as (n & N). exists n. eapply Permutation_in; eassumption.
  - intros S F b B. apply V8; [exact S|exact F|]. eapply Permutation_in; eassumption.
Qed.
Lemma inv_start : forall page strict shared u m, Inv page strict (fresh shared u m).
Proof.
  intros. unfold fresh, os_created. split; cbn [w_os w_mem w_live o_fd o_size o_max o_map o_allocated].
  - intros ->. unfold get_max_file_size. lia.
  - intros b [].
  - constructor.
  - intros x (b & [] & _).
  - intros x y o (b & [] & _).
  - reflexivity.
  - intros _ k v. discriminate.
  - intros _ _ b [].
Qed.

(* map *)
Lemma map_get_cons : forall m k v x, map_get ((k, v) :: m) x = if k =? x then Some v else map_get m x.
Proof. intros. unfold map_get. cbn [find fst]. destruct (k =? x); reflexivity. Qed.
Lemma map_get_remove : forall m k x, map_get (map_remove m k) x = if x =? k then None else map_get m x.
Proof.
  intros m k x. induction m as [|[a b] m IH]; [cbn; destruct (x =? k); reflexivity|]. unfold map_remove in *. cbn [filter fst].
  destruct (Z.eqb_spec a k) as [->|N]; cbn [negb].
  - rewrite IH, map_get_cons. rewrite (Z.eqb_sym k x). destruct (x =? k); reflexivity.
  - rewrite !map_get_cons, IH. destruct (Z.eqb_spec a x) as [->|]; [|reflexivity]. destruct (Z.eqb_spec x k); [contradiction|reflexivity].
Qed.
Lemma map_insert_get : forall m k v m', map_insert m k v = Some m' -> m' = (k, v) :: m.
Proof. intros m k v m'. unfold map_insert. destruct (map_get m k); congruence. Qed.

Lemma covered_cons : forall page b l x, covered page (b :: l) x <-> within page (fst b) (snd b) x = true \/ covered page l x.
Proof.
  intros. unfold covered. split.
  - intros (c & [->|C] & W); [left; exact W|right; eauto].
  - intros [W|(c & C & W)]; [exists b; split; [left; reflexivity|exact W]|exists c; split; [right; exact C|exact W]].
Qed.
(* an address inside one block is not a start of, and not covered by, another *)
Lemma clear_not : forall page b c x, clear_of page b c -> within page (fst b) (snd b) x = true -> within page (fst c) (snd c) x = false.
Proof. intros page b c x D W. apply within_niff. apply within_iff in W. unfold clear_of in D. lia. Qed.
Lemma within_start : forall page b, 0 < page -> 0 < snd b -> within page (fst b) (snd b) (fst b) = true.
Proof. intros page b P S. apply within_iff. destruct (up_spec page (snd b) P). lia. Qed.
Lemma clear_if : forall page b c, 0 < page -> 0 < snd b -> 0 < snd c ->
  (forall x, within page (fst b) (snd b) x = true -> within page (fst c) (snd c) x = false) -> clear_of page b c.
Proof.
  intros page b c P B C H. unfold clear_of. destruct (up_spec page (snd b) P) as [_ UB], (up_spec page (snd c) P) as [_ UC].
  pose proof (H (fst b)) as H1. pose proof (H (fst c)) as H2. rewrite !within_iff, !within_niff in *. lia.
Qed.

Lemma inv_alloc : forall dbg page strict s m live size al mm be r p ev s', pow2 page ->
  0 < size -> 0 <= al -> size + al + page <= 2 ^ 63 -> (strict = true -> al <= page) ->
  os_alloc dbg page s size al mm be = Some (r, p, ev, s') -> kernel page m ev -> Inv page strict (World s m live) ->
  Inv page strict (World s' (after_all page m ev) (if result_eqb r SUCCESS then (p, size) :: live else live)).
Proof.
  intros dbg page strict s m live size al mm be r p ev s' PG S0 A0 NW ST AL K V. pose proof (pow2_range _ PG) as PR.
  assert (AL' : os_alloc false page s size al mm be = Some (r, p, ev, s')).
  { destruct dbg; [|exact AL]. clear - AL. unfold os_alloc in *. destruct (negb (al =? 0) && _ && _); [exact AL|].
    assert (E : utils_mmap_aligned true page (o_fd s) (o_max s) (o_size s) size al mm = None \/ utils_mmap_aligned true page (o_fd s) (o_max s) (o_size s) size al mm = utils_mmap_aligned false page (o_fd s) (o_max s) (o_size s) size al mm).
    { unfold utils_mmap_aligned. cbv zeta. cbn [andb].
      match goal with |- context [if ?c then Some (None, [], _, 0) else _] => destruct c end; [right; reflexivity|].
      destruct mm; [|right; reflexivity]. destruct (page <? al); [|right; reflexivity].
      match goal with |- context [if ?c then None else _] => destruct c end; [left; reflexivity|right; reflexivity]. }
    destruct E as [E|E]; rewrite E in AL; [discriminate|exact AL]. }
  destruct (os_alloc_ok dbg page s size al mm be m r p ev s' PG S0 A0 NW (v_fd V) AL' K) as (_ & F1 & F2 & F3 & FF & FS & _ & _).
  destruct V as [V1 V2 V3 V4 V5 V6 V7 V8]. cbn [w_os w_mem w_live] in *.
  assert (UM : o_fd s = true -> up page (o_size s) <= up page (o_size s')).
  { intros F. specialize (F3 F). unfold up. apply Z.mul_le_mono_nonneg_r; [lia|]. apply Z.div_le_mono; lia. }
  destruct (result_eqb r SUCCESS) eqn:RE.
  2: { assert (RN : r <> SUCCESS) by (intros ->; discriminate RE). destruct (FF RN) as (_ & SM & E1 & E2 & E3). clear FF FS.
    split; cbn [w_os w_mem w_live]; rewrite ?F1, ?F2, ?E1, ?E2; try assumption.
    - intros F. specialize (V1 F). specialize (F3 F). lia.
    - intros x X. destruct (V4 x X) as (k & Kx & C). exists k. split; [rewrite <- SM; exact Kx|]. destruct (o_fd s); [|exact C].
      destruct C as (o & -> & O). exists o. split; [reflexivity|]. specialize (UM eq_refl). lia.
    - intros x y o X Y. rewrite <- !SM. apply V5; assumption.
    - intros S F b B. destruct (V8 S F b B) as (o & O1 & OM & O2 & O3). exists o. split; [exact O1|]. split; [exact OM|]. split; [exact O2|]. intros x X. rewrite <- SM. apply O3, X. }
  assert (RS : r = SUCCESS) by (destruct r; try discriminate; reflexivity). destruct (FS RS) as (E1 & _ & E2 & a & MM & P1 & _ & P2 & P3 & P4 & P5 & P6 & P7 & P8). clear FF FS.
  assert (NEW : forall x, covered page live x -> within page p size x = false).
  { intros x X. destruct (within page p size x) eqn:W; [|reflexivity]. destruct (V4 x X) as (k & Kx & _). rewrite (P6 x W) in Kx. discriminate. }
  assert (KEEP : forall x, covered page live x -> after_all page m ev x = m x).
  { intros x X. rewrite P7, (NEW x X). reflexivity. }
  assert (CLR : Forall (clear_of page (p, size)) live).
  { apply Forall_forall. intros b B. apply clear_sym. apply clear_if; cbn [fst snd]; [lia|apply V2, B|exact S0|]. intros x X. apply NEW. exists b. split; assumption. }
  assert (WF' : forall b, In b ((p, size) :: live) -> 0 < snd b /\ 0 < fst b /\ fst b mod page = 0 /\ fst b + up page (snd b) <= 2 ^ 63).
  { intros b [<-|B]; [cbn [fst snd]; auto|apply V2, B]. }
  assert (DIS' : ForallOrdPairs (clear_of page) ((p, size) :: live)) by (constructor; assumption).
  assert (NOKEY : o_fd s = true -> map_get (o_map s) p = None).
  { intros F. destruct (map_get (o_map s) p) as [v|] eqn:G; [|reflexivity]. destruct (V7 F _ _ G) as (n & N). exfalso.
    assert (X : within page p size p = false).
    { apply NEW. exists (p, n). split; [exact N|]. apply (within_start page (p, n)); [lia|apply (V2 _ N)]. }
    pose proof (within_start page (p, size) ltac:(lia) S0) as Y. cbn [fst snd] in Y. congruence. }
  assert (NF : o_fd s = true -> forall x o, covered page live x -> m x = Some (File o) -> o < o_size s).
  { intros F x o X O. destruct (V4 x X) as (k & Kx & C). rewrite F in C. destruct C as (o' & -> & O'). rewrite Kx in O. injection O as <-.
    rewrite (up_multiple page (o_size s)) in O' by (try apply (P8 F); lia). lia. }
  split; cbn [w_os w_mem w_live]; rewrite ?F1, ?F2.
  - intros F. specialize (V1 F). specialize (F3 F). lia.
  - exact WF'.
  - exact DIS'.
  - intros x X. apply covered_cons in X. cbn [fst snd] in X. destruct X as [W|X].
    + rewrite P7, W. eexists. split; [reflexivity|]. destruct (o_fd s) eqn:F; [|reflexivity]. cbn [shows]. exists (o_size s + (x - a)). split; [reflexivity|].
      destruct (P8 eq_refl) as [Q1 Q2]. apply within_iff in W. specialize (V1 eq_refl).
      replace (o_size s') with (o_size s + (o_size s' - o_size s)) by lia. rewrite up_plus by (try exact Q1; lia). lia.
    + rewrite (KEEP x X). destruct (V4 x X) as (k & Kx & C). exists k. split; [exact Kx|]. destruct (o_fd s); [|exact C].
      destruct C as (o & -> & O). exists o. split; [reflexivity|]. specialize (UM eq_refl). lia.
  - intros x y o X Y. apply covered_cons in X. apply covered_cons in Y. cbn [fst snd] in X, Y.
    destruct X as [WX|X], Y as [WY|Y].
    + rewrite !P7, WX, WY. destruct (o_fd s); cbn [shows]; [|discriminate]. intros [= <-] [= E]. lia.
    + rewrite (KEEP y Y), P7, WX. destruct (o_fd s) eqn:F; cbn [shows]; [|discriminate]. intros [= <-] E. exfalso.
      specialize (NF eq_refl y _ Y E). apply within_iff in WX. lia.
    + rewrite (KEEP x X), P7, WY. destruct (o_fd s) eqn:F; cbn [shows]; [|discriminate]. intros E [= <-]. exfalso.
      specialize (NF eq_refl x _ X E). apply within_iff in WY. lia.
    + rewrite (KEEP x X), (KEEP y Y). apply V5; assumption.
  - rewrite E1, V6. change (sizes ((p, size) :: live)) with (size + sizes live). rewrite Z.add_comm. unfold wrap. apply Z.mod_small.
    assert (B1 : sizes ((p, size) :: live) <= 2 ^ 63 - 0).
    { apply (sizes_bound page (S (length live))); [lia|cbn; lia|exact DIS'| |lia]. intros b B. destruct (WF' b B) as (? & ? & ? & ?). lia. }
    assert (B2 : 0 <= sizes live). { clear - V2. induction live as [|b l IH]; [cbn; lia|]. change (sizes (b :: l)) with (snd b + sizes l).
      assert (0 <= sizes l) by (apply IH; intros; apply V2; right; assumption). destruct (V2 b); [left; reflexivity|lia]. }
    change (sizes ((p, size) :: live)) with (size + sizes live) in B1. change U64 with (2 ^ 64). lia.
  - intros F k v G. rewrite E2, F in G. unfold map_insert in G. rewrite (NOKEY F), map_get_cons in G.
    destruct (Z.eqb_spec p k) as [<-|N]; [exists size; left; reflexivity|].
    destruct (V7 F _ _ G) as (n & I). exists n. right. exact I.
  - intros S F b [<-|B]; cbn [fst snd].
    + exists (o_size s). split; [specialize (V1 F); lia|]. split; [apply (P8 F)|]. rewrite E2, F. unfold map_insert. rewrite (NOKEY F), map_get_cons, Z.eqb_refl. split; [reflexivity|].
      intros x X. rewrite P7, X, F. cbn [shows]. rewrite (P3 (ST S)). reflexivity.
    + destruct (V8 S F b B) as (o & O1 & OM & O2 & O3). exists o. split; [exact O1|]. split; [exact OM|]. split.
      * rewrite E2, F. unfold map_insert. rewrite (NOKEY F), map_get_cons. destruct (Z.eqb_spec p (fst b)) as [E|N]; [|exact O2].
        exfalso. rewrite Forall_forall in CLR. specialize (CLR b B). rewrite <- E in O2. rewrite (NOKEY F) in O2. discriminate.
      * intros x X. rewrite KEEP; [apply O3, X|]. exists b. split; assumption.
Qed.

Lemma inv_free : forall page strict s m p size l ok r ev s', 0 < page -> (strict = true -> ok = true) -> os_free s p size ok = (r, ev, s') ->
  Inv page strict (World s m ((p, size) :: l)) -> Inv page strict (World s' (after_all page m ev) (if result_eqb r SUCCESS then l else (p, size) :: l)).
Proof.
  intros page strict s m p size l ok r ev s' PG ST H [V1 V2 V3 V4 V5 V6 V7 V8]. cbn [w_os w_mem w_live] in *.
  destruct (V2 (p, size)) as (W1 & W2 & W3 & W4); [left; reflexivity|]. cbn [fst snd] in *.
  inversion V3 as [|? ? CL V3']; subst. rewrite Forall_forall in CL.
  unfold os_free in H. destruct (Z.eqb_spec p 0); [lia|]. clear n.
  destruct ok; injection H as <- <- <-; cbn [result_eqb after_all fold_left after].
  - assert (OUT : forall x, covered page l x -> within page p size x = false).
    { intros x (b & B & W). apply (clear_not page b (p, size) x); [apply clear_sym, CL, B|exact W]. }
    split; cbn [w_os w_mem w_live o_fd o_size o_max o_map o_allocated]; try assumption.
    + intros b B. apply V2. right. exact B.
    + intros x X. rewrite (OUT x X). apply V4. apply covered_cons. right. exact X.
    + intros x y o X Y. rewrite (OUT x X), (OUT y Y). apply V5; apply covered_cons; right; assumption.
    + rewrite V6. change (sizes ((p, size) :: l)) with (size + sizes l). replace (size + sizes l - size) with (sizes l) by lia. unfold wrap. apply Z.mod_small.
      assert (B1 : sizes l <= 2 ^ 63 - 0).
      { apply (sizes_bound page (length l)); [exact PG|apply Nat.le_refl|exact V3'| |lia]. intros b B. destruct (V2 b) as (? & ? & ? & ?); [right; exact B|]. lia. }
      assert (B2 : 0 <= sizes l). { clear - V2. induction l as [|b l IH]; [cbn; lia|]. change (sizes (b :: l)) with (snd b + sizes l).
        assert (0 <= sizes l) by (apply IH; intros c [C|C]; apply V2; [left|right; right]; assumption). destruct (V2 b); [right; left; reflexivity|lia]. }
      change U64 with (2 ^ 64). lia.
    + intros F k v G. rewrite F, map_get_remove in G.
      destruct (Z.eqb_spec k p) as [|N]; [discriminate|]. destruct (V7 F _ _ G) as (n & [[= E _]|I]); [congruence|]. exists n. exact I.
    + intros S F b B. destruct (V8 S F b) as (o & O1 & OM & O2 & O3); [right; exact B|]. exists o. split; [exact O1|]. split; [exact OM|]. rewrite F, map_get_remove.
      split.
      * destruct (Z.eqb_spec (fst b) p) as [E|N]; [|exact O2]. exfalso.
        destruct (V2 b) as (Q & _); [right; exact B|]. pose proof (within_start page b PG Q) as T.
        assert (T' : within page p size (fst b) = false) by (apply OUT; exists b; split; assumption).
        pose proof (within_start page (p, size) PG W1) as T2. cbn [fst snd] in T2. congruence.
      * intros x X. rewrite OUT; [apply O3, X|]. exists b. split; assumption.
  - split; cbn [w_os w_mem w_live o_fd o_size o_max o_map o_allocated]; try assumption.
    + intros F k v G. rewrite F, map_get_remove in G. destruct (k =? p); [discriminate|apply (V7 F _ _ G)].
    + intros S. specialize (ST S). discriminate.
Qed.

Lemma up_63 : forall page x, pow2 page -> x <= 2 ^ 63 -> up page x <= 2 ^ 63.
Proof.
  intros page x PG X. pose proof (pow2_range _ PG) as PR. destruct (up_spec page x) as [U1 U2]; [lia|]. destruct (Z.le_gt_cases (up page x) (2 ^ 63)) as [|G]; [assumption|].
  exfalso. assert (M : 2 ^ 63 mod page = 0).
  { destruct PG as (n & N & ->). apply Z.mod_divide; [lia|]. exists (2 ^ (63 - n)). rewrite <- Z.pow_add_r by lia. f_equal. lia. }
  apply Z.mod_divide in U1; [|lia]. apply Z.mod_divide in M; [|lia]. destruct U1 as [a A], M as [b B].
  rewrite A in *. assert (T : 2 ^ 63 < a * page < 2 ^ 63 + page) by lia. rewrite B in T. destruct T as [T1 T2]. assert (b < a) by (apply (Z.mul_lt_mono_pos_r page); lia). assert (a < b + 1) by (apply (Z.mul_lt_mono_pos_r page); lia). lia.
Qed.

Lemma inv_split : forall page strict s m p size l first r s', pow2 page -> 0 < first < size -> first mod page = 0 -> os_allocation_split s p size first = (r, s') ->
  Inv page strict (World s m ((p, size) :: l)) -> Inv page strict (World s' m (if result_eqb r SUCCESS then (p, first) :: (p + first, size - first) :: l else (p, size) :: l)).
Proof.
  intros page strict s m p size l first r s' PW B FM H V. pose proof V as V0. assert (PG : 0 < page) by (pose proof (pow2_range _ PW); lia). destruct V as [V1 V2 V3 V4 V5 V6 V7 V8]. cbn [w_os w_mem w_live] in *.
  destruct (V2 (p, size)) as (W1 & W2 & W3 & W4); [left; reflexivity|]. cbn [fst snd] in *.
  inversion V3 as [|? ? CL V3']; subst. rewrite Forall_forall in CL.
  assert (UP : up page size = first + up page (size - first)). { rewrite <- up_plus by assumption. f_equal. lia. }
  assert (UF : up page first = first) by (apply up_multiple; assumption).
  destruct (up_spec page (size - first) PG) as [US1 US2].
  assert (COV : forall x, covered page ((p, first) :: (p + first, size - first) :: l) x <-> covered page ((p, size) :: l) x).
  { intros x. rewrite !covered_cons. cbn [fst snd]. rewrite !within_iff, UF, UP. split; [intros [?|[?|?]]|intros [?|?]]; try tauto; try (left; lia).
    destruct (Z.lt_ge_cases x (p + first)); [left; lia|right; left; lia]. }
  assert (GOAL : forall s', o_fd s' = o_fd s -> o_size s' = o_size s -> o_max s' = o_max s -> o_allocated s' = o_allocated s ->
    (o_fd s = true -> (exists v, map_get (o_map s) p = Some v /\ forall k, map_get (o_map s') k = if p + first =? k then Some (wrap (v + first)) else map_get (o_map s) k)) ->
    Inv page strict (World s' m ((p, first) :: (p + first, size - first) :: l))).
  { clear H. intros s1 F1 F2 F3 F4 MG. split; cbn [w_os w_mem w_live]; rewrite ?F1, ?F2, ?F3, ?F4; try assumption.
    - intros b [<-|[<-|Bb]]; cbn [fst snd].
      + rewrite UF. lia.
      + split; [lia|]. split; [lia|]. split; [apply mod0_plus; assumption|lia].
      + apply V2. right. exact Bb.
    - constructor; [|constructor; [|exact V3']].
      + constructor; [left; cbn [fst snd]; lia|]. apply Forall_forall. intros c C. specialize (CL c C). unfold clear_of in *. cbn [fst snd] in *. lia.
      + apply Forall_forall. intros c C. specialize (CL c C). unfold clear_of in *. cbn [fst snd] in *. lia.
    - intros x X. apply V4, COV, X.
    - intros x y o X Y. apply V5; apply COV; assumption.
    - rewrite V6. unfold sizes. cbn [fold_right snd]. lia.
    - intros F k v G. destruct (MG F) as (v0 & M0 & MG'). rewrite MG' in G. destruct (Z.eqb_spec (p + first) k) as [<-|N].
      + exists (size - first). right. left. reflexivity.
      + destruct (V7 F _ _ G) as (n & [[= <- <-]|I]); [exists first; left; reflexivity|exists n; right; right; exact I].
    - intros S F. destruct (MG F) as (v0 & M0 & MG'). destruct (V8 S F (p, size)) as (o & O1 & OM & O2 & O3); [left; reflexivity|]. cbn [fst snd] in *.
      assert (v0 = o + 1) by congruence. subst v0.
      assert (OB : o + first < 2 ^ 63).
      { destruct (V4 (p + first)) as (k & Kx & C).
        { apply covered_cons. left. cbn [fst snd]. apply within_iff. lia. }
        rewrite F in C. destruct C as (o' & -> & O'). assert (WI : within page p size (p + first) = true) by (apply within_iff; lia).
        specialize (O3 _ WI). rewrite O3 in Kx. injection Kx as E. specialize (V1 F). pose proof (up_63 page (o_size s) PW). lia. }
      intros b [<-|[<-|Bb]]; cbn [fst snd].
      + exists o. split; [exact O1|]. split; [exact OM|]. rewrite MG'. split; [destruct (Z.eqb_spec (p + first) p); [lia|exact O2]|].
        intros x X. apply O3. rewrite within_iff in *. lia.
      + exists (o + first). split; [lia|]. split; [apply mod0_plus; assumption|]. rewrite MG', Z.eqb_refl. split.
        * f_equal. unfold wrap. rewrite Z.mod_small; [lia|]. change U64 with (2 ^ 64). lia.
        * intros x X. rewrite O3 by (rewrite within_iff in *; lia). do 2 f_equal. lia.
      + destruct (V8 S F b) as (o' & Q1 & QM & Q2 & Q3); [right; exact Bb|]. exists o'. split; [exact Q1|]. split; [exact QM|]. split; [|exact Q3].
        rewrite MG'. destruct (Z.eqb_spec (p + first) (fst b)) as [E|N]; [|exact Q2]. exfalso.
        destruct (V2 b) as (Q & _); [right; exact Bb|]. specialize (CL b Bb). destruct (up_spec page (snd b) PG). unfold clear_of in CL. cbn [fst snd] in CL. lia. }
  unfold os_allocation_split in H. destruct (o_fd s) eqn:F; cbn [negb] in H.
  2: { injection H as <- <-. cbn [result_eqb]. apply GOAL; try reflexivity; congruence. }
  assert (WR : wrap (p + first) = p + first). { unfold wrap. apply Z.mod_small. change U64 with (2 ^ 64). lia. }
  destruct (map_get (o_map s) p) as [v|] eqn:G; [|injection H as <- <-; exact V0].
  destruct (map_insert (o_map s) (wrap (p + first)) (wrap (v + first))) as [m1|] eqn:I; injection H as <- <-; [|exact V0].
  cbn [result_eqb]. rewrite WR in I. apply map_insert_get in I. subst m1.
  apply GOAL; cbn [set_map o_fd o_size o_max o_map o_allocated]; try reflexivity; try assumption.
  intros _. exists v. split; [reflexivity|]. intros k. rewrite map_get_cons. reflexivity.
Qed.

Lemma inv_merge : forall page strict s m p f g l r s', 0 < page -> f mod page = 0 ->
  (strict = true -> forall o, m p = Some (File o) -> m (p + f) = Some (File (o + f))) -> os_allocation_merge s p (p + f) (f + g) = (r, s') ->
  Inv page strict (World s m ((p, f) :: (p + f, g) :: l)) -> Inv page strict (World s' m (if result_eqb r SUCCESS then (p, f + g) :: l else (p, f) :: (p + f, g) :: l)).
Proof.
  intros page strict s m p f g l r s' PG FM ST H V. pose proof V as V0. destruct V as [V1 V2 V3 V4 V5 V6 V7 V8]. cbn [w_os w_mem w_live] in *.
  destruct (V2 (p, f)) as (W1 & W2 & W3 & W4); [left; reflexivity|]. destruct (V2 (p + f, g)) as (X1 & X2 & X3 & X4); [right; left; reflexivity|]. cbn [fst snd] in *.
  inversion V3 as [|? ? CL V3']; subst. inversion V3' as [|? ? CL' V3'']; subst. rewrite Forall_forall in CL, CL'.
  assert (UP : up page (f + g) = f + up page g) by (apply up_plus; assumption).
  assert (UF : up page f = f) by (apply up_multiple; assumption).
  destruct (up_spec page g PG) as [US1 US2].
  assert (COV : forall x, covered page ((p, f + g) :: l) x <-> covered page ((p, f) :: (p + f, g) :: l) x).
  { intros x. rewrite !covered_cons. cbn [fst snd]. rewrite !within_iff, UF, UP. split; [intros [?|?]|intros [?|[?|?]]]; try tauto; try (left; lia).
    destruct (Z.lt_ge_cases x (p + f)); [left; lia|right; left; lia]. }
  assert (GOAL : forall s', o_fd s' = o_fd s -> o_size s' = o_size s -> o_max s' = o_max s -> o_allocated s' = o_allocated s ->
    (o_fd s = true -> (forall k, map_get (o_map s') k = if k =? p + f then None else map_get (o_map s) k)) ->
    Inv page strict (World s' m ((p, f + g) :: l))).
  { clear H. intros s1 F1 F2 F3 F4 MG. split; cbn [w_os w_mem w_live]; rewrite ?F1, ?F2, ?F3, ?F4; try assumption.
    - intros b [<-|Bb]; cbn [fst snd]; [split; [lia|]; split; [lia|]; split; [assumption|lia]|]. apply V2. right. right. exact Bb.
    - constructor; [|exact V3'']. apply Forall_forall. intros c C. pose proof (CL c (or_intror C)) as D1. pose proof (CL' c C) as D2.
      destruct (V2 c) as (Y1 & _); [right; right; exact C|]. destruct (up_spec page (snd c) PG) as [_ UC].
      unfold clear_of in *. cbn [fst snd] in *. lia.
    - intros x X. apply V4, COV, X.
    - intros x y o X Y. apply V5; apply COV; assumption.
    - rewrite V6. unfold sizes. cbn [fold_right snd]. lia.
    - intros F k v G. rewrite (MG F) in G. destruct (Z.eqb_spec k (p + f)) as [|N]; [discriminate|].
      destruct (V7 F _ _ G) as (n & [[= <- <-]|[[= E _]|I]]); [exists (f + g); left; reflexivity|congruence|exists n; right; exact I].
    - intros S F. destruct (V8 S F (p, f)) as (o & O1 & OM & O2 & O3); [left; reflexivity|]. destruct (V8 S F (p + f, g)) as (o' & Q1 & QM & Q2 & Q3); [right; left; reflexivity|]. cbn [fst snd] in *.
      assert (E : o' = o + f).
      { assert (A1 : m p = Some (File o)). { rewrite (O3 p) by (apply within_iff; lia). do 2 f_equal. lia. }
        specialize (ST S o A1). rewrite (Q3 (p + f)) in ST by (apply within_iff; lia). injection ST as ST. lia. }
      intros b [<-|Bb]; cbn [fst snd].
      + exists o. split; [exact O1|]. split; [exact OM|]. rewrite (MG F). split; [destruct (Z.eqb_spec p (p + f)); [lia|exact O2]|].
        intros x X. apply within_iff in X. destruct (Z.lt_ge_cases x (p + f)) as [L|G].
        * apply O3. apply within_iff. lia.
        * rewrite Q3 by (apply within_iff; lia). do 2 f_equal. lia.
      + destruct (V8 S F b) as (o2 & R1 & RM & R2 & R3); [right; right; exact Bb|]. exists o2. split; [exact R1|]. split; [exact RM|]. split; [|exact R3].
        rewrite (MG F). destruct (Z.eqb_spec (fst b) (p + f)) as [E2|N]; [|exact R2]. exfalso.
        destruct (V2 b) as (Q & _); [right; right; exact Bb|]. specialize (CL' b Bb). destruct (up_spec page (snd b) PG). unfold clear_of in CL'. cbn [fst snd] in CL'. lia. }
  unfold os_allocation_merge in H. destruct (o_fd s) eqn:F; cbn [negb] in H.
  2: { injection H as <- <-. cbn [result_eqb]. apply GOAL; try reflexivity; congruence. }
  destruct (map_get (o_map s) (p + f)) as [v|] eqn:G; injection H as <- <-; [|exact V0]. cbn [result_eqb].
  apply GOAL; cbn [set_map o_fd o_size o_max o_map o_allocated]; try reflexivity; try assumption.
  intros _ k. apply map_get_remove.
Qed.

Theorem inv_reached : forall dbg page strict w0 w, pow2 page -> Inv page strict w0 -> reached dbg page strict w0 w -> Inv page strict w.
Proof.
  intros dbg page strict w0 w PG V0 R. pose proof (pow2_range _ PG) as PR. assert (P0 : 0 < page) by lia. induction R as [|w w' R IH ST]; [exact V0|]. clear V0.
  destruct ST.
  - eapply inv_alloc; eassumption.
  - assert (IH' : Inv page strict (World s m ((p, size) :: l1 ++ l2))) by (eapply inv_perm; [apply Permutation_sym, Permutation_middle|exact IH]).
    pose proof (inv_free page strict s m p size (l1 ++ l2) ok r ev s' P0 H H0 IH') as V. destruct (result_eqb r SUCCESS); [exact V|].
    eapply inv_perm; [apply Permutation_middle|exact V].
  - assert (IH' : Inv page strict (World s m ((p, size) :: l1 ++ l2))) by (eapply inv_perm; [apply Permutation_sym, Permutation_middle|exact IH]).
    pose proof (inv_split page strict s m p size (l1 ++ l2) first r s' PG H H0 H1 IH') as V. destruct (result_eqb r SUCCESS).
    + eapply inv_perm; [|exact V]. etransitivity; [|apply Permutation_middle]. constructor. apply Permutation_middle.
    + eapply inv_perm; [apply Permutation_middle|exact V].
  - assert (PM : Permutation (l1 ++ (p, f) :: (p + f, g) :: l2) ((p, f) :: (p + f, g) :: l1 ++ l2)).
    { apply Permutation_sym. etransitivity; [|apply Permutation_middle]. constructor. apply Permutation_middle. }
    pose proof (inv_merge page strict s m p f g (l1 ++ l2) r s' P0 H H0 H1 (inv_perm _ _ _ _ _ _ PM IH)) as V. destruct (result_eqb r SUCCESS).
    + eapply inv_perm; [apply Permutation_middle|exact V].
    + eapply inv_perm; [apply Permutation_sym, PM|exact V].
  - eapply inv_perm; [|exact IH]. apply Permutation_app_head. constructor.
  - destruct IH as [V1 V2 V3 V4 V5 V6 V7 V8]. split; assumption.
  - destruct IH as [V1 V2 V3 V4 V5 V6 V7 V8]. cbn [w_os w_mem w_live] in *. split; cbn [w_os w_mem w_live]; try assumption.
    + intros x X. rewrite (H x X). apply V4, X.
    + intros x y o X Y. rewrite (H x X), (H y Y). apply V5; assumption.
    + intros S F b B. destruct (V8 S F b B) as (o & O1 & OM & O2 & O3). exists o. do 3 (split; [assumption|]). intros x X. rewrite H; [apply O3, X|]. exists b. split; assumption.
Qed.

(* ---------------- the calls of os_alloc ---------------- *)
Lemma mmap_event : forall dbg page fd max size_fd size al mm p ev size' off, utils_mmap_aligned dbg page fd max size_fd size al mm = Some (Some p, ev, size', off) ->
  exists a o, mm = Some a /\ In (Mmap a (if page <? al then wrap (size + al) else size) o) ev.
Proof.
  intros dbg page fd max size_fd size al mm p ev size' off H. unfold utils_mmap_aligned in H. cbv zeta in H.
  match type of H with (if ?c then _ else _) = _ => destruct c end; [discriminate|]. destruct mm as [a|]; [|discriminate]. exists a.
  destruct (page <? al).
  - match type of H with (if ?c then _ else _) = _ => destruct c end; [discriminate|]. injection H as <- <- <- <-. eexists. split; [reflexivity|]. left. reflexivity.
  - injection H as <- <- <- <-. eexists. split; [reflexivity|]. left. reflexivity.
Qed.
Lemma mmap_none_event : forall dbg page fd max size_fd size al mm ev size' off q n ok, utils_mmap_aligned dbg page fd max size_fd size al mm = Some (None, ev, size', off) -> ~ In (Munmap q n ok) ev.
Proof.
  intros dbg page fd max size_fd size al mm ev size' off q n ok H. unfold utils_mmap_aligned in H. cbv zeta in H.
  match type of H with (if ?c then _ else _) = _ => destruct c end; [injection H as <- <- <-; intros []|]. destruct mm as [a|].
  - destruct (page <? al); [|discriminate]. match type of H with (if ?c then _ else _) = _ => destruct c end; discriminate.
  - injection H as <- <- <-. intros [[=]|[]].
Qed.
Lemma alloc_event : forall dbg page s size al mm be r p ev s' q n ok, os_alloc dbg page s size al mm be = Some (r, p, ev, s') -> In (Munmap q n ok) ev ->
  exists a o, mm = Some a /\ In (Mmap a (if page <? al then wrap (size + al) else size) o) ev.
Proof.
  intros dbg page s size al mm be r p ev s' q n ok H I. unfold os_alloc in H. destruct (negb (al =? 0) && _ && _); [injection H as <- <- <- <-; destruct I|].
  destruct (utils_mmap_aligned _ _ _ _ _ _ _ _) as [[[[[addr|] ev1] size'] off]|] eqn:E; [| |discriminate].
  2: { injection H as <- <- <- <-. exfalso. eapply mmap_none_event; eassumption. }
  destruct (mmap_event _ _ _ _ _ _ _ _ _ _ _ _ E) as (a & o & M & IN). exists a, o. split; [exact M|].
  assert (X : exists rest, ev = ev1 ++ rest).
  { destruct ((0 <? al) && negb (addr mod al =? 0)); [injection H as <- <- <- <-; eauto|].
    destruct (policy_default _); [injection H as <- <- <- <-; eauto|].
    destruct (ALIGN_UP_SAFE size page =? 0); [injection H as <- <- <- <-; eauto|].
    destruct (os_bind _ _ _ _) as [[calls u]|]; [|discriminate].
    destruct be as [k|]; [destruct (Nat.ltb _ _)|]; injection H as <- <- <- <-; eauto. }
  destruct X as [rest ->]. apply in_or_app. left. exact IN.
Qed.
Lemma os_alloc_dbg : forall dbg page s size al mm be x, os_alloc dbg page s size al mm be = Some x -> os_alloc false page s size al mm be = Some x.
Proof.
  intros dbg page s size al mm be x AL. destruct dbg; [|exact AL]. unfold os_alloc in *. destruct (negb (al =? 0) && _ && _); [exact AL|].
  assert (E : utils_mmap_aligned true page (o_fd s) (o_max s) (o_size s) size al mm = None \/ utils_mmap_aligned true page (o_fd s) (o_max s) (o_size s) size al mm = utils_mmap_aligned false page (o_fd s) (o_max s) (o_size s) size al mm).
  { unfold utils_mmap_aligned. cbv zeta. cbn [andb].
    match goal with |- context [if ?c then Some (None, [], _, 0) else _] => destruct c end; [right; reflexivity|].
    destruct mm; [|right; reflexivity]. destruct (page <? al); [|right; reflexivity].
    match goal with |- context [if ?c then None else _] => destruct c end; [left; reflexivity|right; reflexivity]. }
  destruct E as [E|E]; rewrite E in AL; [discriminate|exact AL].
Qed.

Lemma alloc_exact : forall dbg page strict shared u m0 w size al mm be r p ev s', pow2 page -> reached dbg page strict (fresh shared u m0) w ->
  0 < size -> 0 <= al -> size + al + page <= 2 ^ 63 -> os_alloc dbg page (w_os w) size al mm be = Some (r, p, ev, s') -> kernel page (w_mem w) ev ->
  (r = SUCCESS -> p mod page = 0 /\ (0 < al -> p mod al = 0) /\ gained page (w_mem w) (after_all page (w_mem w) ev) p size) /\
  (r <> SUCCESS -> same (w_mem w) (after_all page (w_mem w) ev)) /\
  (forall q n ok x, In (Munmap q n ok) ev -> q mod page = 0 /\ 0 < n /\ (within page q n x = true -> exists a len off, In (Mmap a len off) ev /\ within page a len x = true)) /\
  (be = None -> (r = SUCCESS <-> (al = 0 \/ al mod page = 0 \/ page mod al = 0) /\ mm <> None /\ (o_fd (w_os w) = true -> o_size (w_os w) + (if page <? al then size + al else size) <= o_max (w_os w)))).
Proof.
  intros dbg page strict shared u m0 w size al mm be r p ev s' PG R S0 A0 NW H K.
  pose proof (inv_reached _ _ _ _ _ PG (inv_start page strict shared u m0) R) as V. pose proof (os_alloc_dbg _ _ _ _ _ _ _ _ H) as H0.
  destruct (os_alloc_ok dbg page (w_os w) size al mm be (w_mem w) r p ev s' PG S0 A0 NW (v_fd V) H0 K) as (_ & _ & _ & _ & FF & FS & FM & FB).
  split.
  { intros E. destruct (FS E) as (_ & _ & _ & a & _ & P1 & P2 & _ & _ & _ & _ & P6 & P7 & _). do 2 (split; [assumption|]). intros x. rewrite P7. split; intros W; rewrite W; [|reflexivity].
    split; [apply P6, W|discriminate]. }
  split; [intros E; apply (FF E)|]. split; [|exact FB].
  intros q n ok x I. destruct (FM q n ok I) as (a & M & Q1 & Q2 & Q3 & Q4). do 2 (split; [assumption|]). intros W.
  destruct (alloc_event _ _ _ _ _ _ _ _ _ _ _ _ _ _ H I) as (a' & o & M' & I'). assert (a' = a) by congruence. subst a'. exists a, (extent page size al), o. split.
  - unfold extent. destruct (page <? al); [|exact I']. replace (size + al) with (wrap (size + al)); [exact I'|]. unfold wrap. apply Z.mod_small. change U64 with (2 ^ 64). pose proof (pow2_range _ PG). lia.
  - rewrite within_iff in *. lia.
Qed.
Lemma asserts_hold : forall page strict shared u m0 w size al mm be x, pow2 page -> reached false page strict (fresh shared u m0) w ->
  0 < size -> 0 <= al -> size + al + page <= 2 ^ 63 -> os_alloc false page (w_os w) size al mm be = Some x -> kernel page (w_mem w) (snd (fst x)) ->
  os_alloc true page (w_os w) size al mm be = Some x.
Proof.
  intros page strict shared u m0 w size al mm be [[[r p] ev] s'] PG R S0 A0 NW H K. cbn [fst snd] in K.
  pose proof (inv_reached _ _ _ _ _ PG (inv_start page strict shared u m0) R) as V.
  apply (os_alloc_ok true page (w_os w) size al mm be (w_mem w) r p ev s' PG S0 A0 NW (v_fd V) H K).
Qed.
Lemma ford_nth : forall (R : block -> block -> Prop), (forall a b, R a b -> R b a) -> forall l i j b c, ForallOrdPairs R l -> i <> j -> nth_error l i = Some b -> nth_error l j = Some c -> R b c.
Proof.
  intros R SY l. induction l as [|a l IH]; intros i j b c F N I J; [destruct i; discriminate|]. inversion F as [|? ? F1 F2]; subst. rewrite Forall_forall in F1.
  destruct i as [|i], j as [|j]; cbn [nth_error] in I, J; [congruence| | |].
  - injection I as <-. apply F1. eapply nth_error_In, J.
  - injection J as <-. apply SY, F1. eapply nth_error_In, I.
  - eapply IH; [exact F2| |exact I|exact J]. congruence.
Qed.
Lemma history_exact : forall dbg page strict shared u m0 w, pow2 page -> reached dbg page strict (fresh shared u m0) w ->
  (forall i j b c x, i <> j -> nth_error (w_live w) i = Some b -> nth_error (w_live w) j = Some c -> within page (fst b) (snd b) x = true -> within page (fst c) (snd c) x = false) /\
  (forall x, covered page (w_live w) x -> w_mem w x <> None) /\ o_allocated (w_os w) = sizes (w_live w).
Proof.
  intros dbg page strict shared u m0 w PG R. pose proof (inv_reached _ _ _ _ _ PG (inv_start page strict shared u m0) R) as V.
  split; [|split; [|apply (v_sum V)]].
  - intros i j b c x N I J. apply clear_not. eapply ford_nth; [intros; now apply clear_sym|apply (v_dis V)|exact N|exact I|exact J].
  - intros x X. destruct (v_map V x X) as (k & -> & _). discriminate.
Qed.
Lemma fd_kept : forall dbg page strict w w', pow2 page -> Inv page strict w -> step dbg page strict w w' -> o_fd (w_os w') = o_fd (w_os w).
Proof.
  intros dbg page strict w w' PG V S. destruct S; cbn [w_os w_mem] in *; try reflexivity.
  - eapply (os_alloc_ok false page s size alignment mm be m r p ev s'); try eassumption; [apply (v_fd V)|eapply os_alloc_dbg; eassumption].
  - unfold os_free in H0. destruct (p =? 0); [now injection H0 as _ _ <-|]. destruct ok; now injection H0 as _ _ <-.
  - unfold os_allocation_split in H1. destruct (negb (o_fd s)); [now injection H1 as _ <-|]. destruct (map_get _ _); [|now injection H1 as _ <-]. destruct (map_insert _ _ _); now injection H1 as _ <-.
  - unfold os_allocation_merge in H1. destruct (negb (o_fd s)); [now injection H1 as _ <-|]. destruct (map_get _ _); now injection H1 as _ <-.
Qed.
Lemma fd_reached : forall dbg page strict shared u m0 w, pow2 page -> reached dbg page strict (fresh shared u m0) w -> o_fd (w_os w) = shared.
Proof.
  intros dbg page strict shared u m0 w PG R. induction R as [|w w' R IH S]; [reflexivity|].
  rewrite <- IH. eapply fd_kept; [exact PG| |exact S]. eapply inv_reached; [exact PG|apply inv_start|exact R].
Qed.
Lemma no_alias : forall dbg page strict u m0 w x y, pow2 page -> reached dbg page strict (fresh true u m0) w -> covered page (w_live w) x -> covered page (w_live w) y ->
  (exists o, w_mem w x = Some (File o) /\ 0 <= o < up page (o_size (w_os w))) /\ (w_mem w x = w_mem w y -> x = y).
Proof.
  intros dbg page strict u m0 w x y PG R X Y. pose proof (inv_reached _ _ _ _ _ PG (inv_start page strict true u m0) R) as V. pose proof (fd_reached _ _ _ _ _ _ _ PG R) as F.
  destruct (v_map V x X) as (k & Kx & C). rewrite F in C. destruct C as (o & -> & O). split; [eauto|]. intros E. apply (v_inj V x y o X Y Kx). congruence.
Qed.
Lemma ipc_bytes : forall dbg page u m0 w p size n, pow2 page -> reached dbg page true (fresh true u m0) w -> In (p, size) (w_live w) -> 0 < n <= size ->
  exists d, os_get_ipc_handle (w_os w) p n = (SUCCESS, Some d) /\ i_off d mod page = 0 /\ 0 <= i_off d < 2 ^ 63 /\
    forall mc a r q ev, os_open_ipc_handle d (Some a) = (r, q, ev) ->
      r = SUCCESS /\ q = a /\ forall i, 0 <= i < n -> after_all page mc ev (a + i) = w_mem w (p + i).
Proof.
  intros dbg page u m0 w p size n PG R I N. pose proof (inv_reached _ _ _ _ _ PG (inv_start page true true u m0) R) as V. pose proof (fd_reached _ _ _ _ _ _ _ PG R) as F.
  destruct (v_strict V eq_refl F (p, size) I) as (o & O1 & OM & O2 & O3). cbn [fst snd] in *. pose proof (pow2_range _ PG) as PR.
  unfold os_get_ipc_handle. rewrite F, O2. cbn [negb]. replace (o + 1 - 1) with o by lia.
  assert (W : wrap o = o). { unfold wrap. apply Z.mod_small. change U64 with (2 ^ 64). lia. } rewrite W.
  exists (Ipc o n). split; [reflexivity|]. cbn [i_off i_size]. split; [exact OM|]. split; [exact O1|].
  intros mc a r q ev H. cbn [os_open_ipc_handle i_off i_size] in H. injection H as <- <- <-. do 2 (split; [reflexivity|]). intros i L.
  cbn [after_all fold_left after].
  destruct (up_spec page n) as [_ UN]; [lia|]. destruct (up_spec page size) as [_ US]; [lia|].
  assert (W1 : within page a n (a + i) = true) by (apply within_iff; lia). rewrite W1.
  rewrite O3 by (apply within_iff; lia). do 2 f_equal. lia.
Qed.
