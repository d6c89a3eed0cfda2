(* Proofs about a log line. *)
From Verif Require Import Base Model_Ctl Model_Parse Model_LogLine Spec_LogLine.

Lemma len_nonneg : forall s, 0 <= len s. Proof. intros. unfold len. lia. Qed.
Lemma len_app : forall a b, len (a ++ b) = len a + len b. Proof. intros. unfold len. rewrite app_length. lia. Qed.
Lemma len_cons : forall c a, len (c :: a) = 1 + len a. Proof. intros. unfold len. cbn [List.length]. lia. Qed.
Lemma len_nil : len [] = 0. Proof. reflexivity. Qed.
Lemma take_all : forall n s, len s <= n -> take n s = s.
Proof. intros n s L. unfold take. apply firstn_all2. unfold len in L. lia. Qed.
Lemma take_len : forall n s, 0 <= n -> n <= len s -> len (take n s) = n.
Proof. intros n s N L. unfold take, len in *. rewrite firstn_length. lia. Qed.
Lemma take_split : forall n s, exists r, s = take n s ++ r.
Proof. intros n s. exists (skipn (Z.to_nat n) s). symmetry. apply firstn_skipn. Qed.
Lemma take_app_l : forall n a b, len a <= n -> take n (a ++ b) = a ++ take (n - len a) b.
Proof. intros n a b L. unfold take, len in *. rewrite firstn_app. rewrite firstn_all2 by lia. f_equal. f_equal. lia. Qed.
Lemma take_app_r : forall n a b, n <= len a -> take n (a ++ b) = take n a.
Proof. intros n a b L. unfold take, len in *. rewrite firstn_app. replace (Z.to_nat n - List.length a)%nat with 0%nat by lia. cbn [firstn]. apply app_nil_r. Qed.
Lemma take_zero : forall s, take 0 s = []. Proof. reflexivity. Qed.
Lemma cstring_app : forall a b, cstring (a ++ b) <-> cstring a /\ cstring b.
Proof. intros a b. unfold cstring. rewrite in_app_iff. tauto. Qed.
Lemma cstring_take : forall n s, cstring s -> cstring (take n s).
Proof. intros n s C. destruct (take_split n s) as (r & E). rewrite E in C. apply cstring_app in C. apply C. Qed.

Definition holds (m : mem) (off : Z) (s : str) : Prop := forall i, 0 <= i < len s -> m (off + i) = at_ s i.
Lemma holds_app : forall m off a b, holds m off (a ++ b) <-> holds m off a /\ holds m (off + len a) b.
Proof.
  intros m off a b. unfold holds. rewrite len_app. pose proof (len_nonneg a) as LA. pose proof (len_nonneg b) as LB. unfold at_. split.
  - intros H. split; intros i I.
    + rewrite H by lia. apply app_nth1. unfold len in *. lia.
    + replace (off + len a + i) with (off + (len a + i)) by lia. rewrite H by lia. rewrite app_nth2 by (unfold len in *; lia). f_equal. unfold len in *. lia.
  - intros (A & B) i I. destruct (Z_lt_ge_dec i (len a)) as [L|L].
    + rewrite A by lia. symmetry. apply app_nth1. unfold len in *. lia.
    + replace (off + i) with (off + len a + (i - len a)) by lia. rewrite B by lia. rewrite app_nth2 by (unfold len in *; lia). f_equal. unfold len in *. lia.
Qed.
Lemma holds_nul : forall m off, holds m off [NUL] <-> m off = NUL.
Proof. intros m off. unfold holds. split; [intros H; specialize (H 0 ltac:(vm_compute; split; [discriminate|reflexivity])); rewrite Z.add_0_r in H; exact H|]. intros H i I. change (len [NUL]) with 1 in I. replace i with 0 by lia. rewrite Z.add_0_r. exact H. Qed.
Lemma text_from_holds : forall s fuel m off, cstring s -> 0 <= off -> off + len s < LOG_MAX -> (List.length s < fuel)%nat -> holds m off (s ++ [NUL]) -> text_from fuel m off = Some s.
Proof.
  induction s as [|c s IH]; intros fuel m off C O L F H; (destruct fuel as [|fuel]; [cbn in F; lia|]); cbn [text_from].
  - rewrite len_nil in L. replace ((0 <=? off) && (off <? LOG_MAX)) with true by (symmetry; apply andb_true_iff; split; [apply Z.leb_le|apply Z.ltb_lt]; lia). cbn [app] in H. apply holds_nul in H. rewrite H. reflexivity.
  - rewrite len_cons in L. pose proof (len_nonneg s). replace ((0 <=? off) && (off <? LOG_MAX)) with true by (symmetry; apply andb_true_iff; split; [apply Z.leb_le|apply Z.ltb_lt]; lia).
    change ((c :: s) ++ [NUL]) with ([c] ++ (s ++ [NUL])) in H. apply holds_app in H. destruct H as (H1 & H2). change (len [c]) with 1 in H2. assert (E : m off = c) by (specialize (H1 0 ltac:(vm_compute; split; [discriminate|reflexivity])); rewrite Z.add_0_r in H1; exact H1). rewrite E.
    replace (aeqb c NUL) with false by (symmetry; unfold aeqb; apply Ascii.eqb_neq; intros ->; apply C; left; reflexivity).
    rewrite (IH fuel m (off + 1)); [reflexivity| |lia|lia|cbn in F; lia|exact H2]. intros W. apply C. right. exact W.
Qed.
Lemma text_holds : forall s m off, cstring s -> 0 <= off -> off + len s < LOG_MAX -> holds m off (s ++ [NUL]) -> text_at m off = Some s.
Proof. intros s m off C O L H. apply text_from_holds; [exact C|exact O|exact L| |exact H]. unfold len in L. lia. Qed.
Lemma put_ok : forall m off s, 0 <= off -> off + len s <= LOG_MAX -> exists m', put m off s = Some m' /\ holds m' off s /\ forall i, i < off \/ off + len s <= i -> m' i = m i.
Proof.
  intros m off s O L. unfold put. destruct (Z.eqb_spec (len s) 0) as [Z0|NZ].
  - exists m. split; [reflexivity|]. split; [intros i I; lia|reflexivity].
  - replace ((0 <=? off) && (off + len s <=? LOG_MAX)) with true by (symmetry; apply andb_true_iff; split; apply Z.leb_le; lia). eexists. split; [reflexivity|]. split.
    + intros i I. cbn beta. replace ((off <=? off + i) && (off + i <? off + len s)) with true by (symmetry; apply andb_true_iff; split; [apply Z.leb_le|apply Z.ltb_lt]; lia). f_equal. lia.
    + intros i I. cbn beta. replace ((off <=? i) && (i <? off + len s)) with false; [reflexivity|]. symmetry. apply andb_false_iff. destruct I as [I|I]; [left; apply Z.leb_gt; lia|right; apply Z.ltb_ge; lia].
Qed.
Lemma holds_kept : forall m m' off s, (forall i, off <= i < off + len s -> m' i = m i) -> holds m off s -> holds m' off s.
Proof. intros m m' off s K H i I. rewrite K by lia. apply H. exact I. Qed.
Lemma print_ok : forall m off size s, 0 <= off -> 0 <= size -> off + size <= LOG_MAX ->
  exists m', print m off size s = Some m' /\ (0 < size -> holds m' off (take (size - 1) s ++ [NUL])) /\ (forall i, i < off -> m' i = m i) /\ (size = 0 -> m' = m).
Proof.
  intros m off size s O S L. unfold print, size_of_int. destruct (Z.ltb_spec size 0); [lia|]. cbv zeta. destruct (Z.eqb_spec size 0) as [->|NZ].
  - exists m. split; [reflexivity|]. split; [lia|]. auto.
  - assert (LT : len (take (size - 1) s ++ [NUL]) <= size). { rewrite len_app. change (len [NUL]) with 1. destruct (Z_le_gt_dec (len s) (size - 1)); [rewrite take_all by lia; lia|rewrite take_len by lia; lia]. }
    destruct (put_ok m off (take (size - 1) s ++ [NUL]) O ltac:(lia)) as (m' & E & HH & K). exists m'. split; [exact E|]. split; [intros _; exact HH|]. split; [intros i I; apply K; left; exact I|lia].
Qed.
(* the first two prints: the beginning of the text *)
Lemma prints_ok : forall m F msg, 1 <= len F <= LOG_MAX -> exists m1 m2, print m 0 LOG_MAX F = Some m1 /\ print m1 (len F) (LOG_MAX - len F) msg = Some m2 /\ holds m2 0 (take (LOG_MAX - 1) (F ++ msg) ++ [NUL]).
Proof.
  intros m F msg L. assert (LM : LOG_MAX = 8192) by reflexivity. destruct (print_ok m 0 LOG_MAX F) as (m1 & E1 & H1 & _ & _); [lia|lia|lia|]. specialize (H1 ltac:(lia)). destruct (print_ok m1 (len F) (LOG_MAX - len F) msg) as (m2 & E2 & H2 & K2 & Z2); [lia|lia|lia|]. exists m1, m2. split; [exact E1|]. split; [exact E2|].
  destruct (Z.eq_dec (len F) LOG_MAX) as [EQ|NE].
  - rewrite (Z2 ltac:(lia)). rewrite take_app_r by lia. exact H1.
  - rewrite take_app_l by lia. rewrite <- app_assoc. apply holds_app. split.
    + rewrite take_all in H1 by lia. apply holds_app in H1. apply (holds_kept m1 m2); [|apply H1]. intros i I. apply K2. lia.
    + rewrite Z.add_0_l. replace (LOG_MAX - 1 - len F) with (LOG_MAX - len F - 1) by lia. apply H2. lia.
Qed.
Lemma body_ok : forall m func msg err, len func <= LOG_MAX - 2 -> cstring func -> cstring msg -> (forall e b, err = Some (e, b) -> cstring e) ->
  exists m' t post, body m func msg err = Some (m', post) /\ text_at m' 0 = Some t /\ shows (message func msg err) (cut_error err) t post.
Proof.
  intros m func msg err LF CF CM CE. assert (LM : LOG_MAX = 8192) by reflexivity. pose proof (len_nonneg func) as PF. pose proof (len_nonneg msg) as PM. assert (L2 : forall a, len (a ++ s_ ": ") = len a + 2) by (intros a; rewrite len_app; reflexivity). assert (CC : cstring (s_ ": ")) by (vm_compute; intuition discriminate).
  destruct (prints_ok m (func ++ s_ ": ") msg) as (m1 & m2 & E1 & E2 & H2); [rewrite L2; lia|]. rewrite L2 in E2. unfold body. rewrite E1. cbv zeta. rewrite E2. clear E1 E2 m m1.
  set (F := func ++ s_ ": ") in *. assert (CFF : cstring (F ++ msg)) by (apply cstring_app; split; [apply cstring_app; split; assumption|exact CM]). assert (LFM : len (F ++ msg) = len func + 2 + len msg) by (unfold F; rewrite len_app, L2; lia).
  assert (T2 : text_at m2 0 = Some (take (LOG_MAX - 1) (F ++ msg))).
  { apply text_holds; [apply cstring_take; exact CFF|lia| |exact H2]. destruct (Z_le_gt_dec (len (F ++ msg)) (LOG_MAX - 1)); [rewrite take_all by lia; lia|rewrite take_len by lia; lia]. }
  destruct err as [(e, b)|].
  - assert (MS : message func msg (Some (e, b)) = (F ++ msg) ++ s_ ": " ++ e) by (unfold message, F; rewrite <- !app_assoc; reflexivity). rewrite MS. pose proof (len_nonneg e) as PE. assert (LFULL : len ((F ++ msg) ++ s_ ": " ++ e) = len func + 2 + len msg + 2 + len e) by (rewrite len_app, LFM, len_app; change (len (s_ ": ")) with 2; lia).
    destruct (Z.ltb_spec 2 (LOG_MAX - (len func + 2) - len msg)) as [R|R].
    + (* room for the error *)
      rewrite take_all in H2 by lia. set (pos := len func + 2 + len msg) in *. pose proof H2 as H2'. apply holds_app in H2'. destruct H2' as (HA & HN). rewrite Z.add_0_l, LFM in HN. unfold strncat. rewrite (text_holds [] m2 pos ltac:(intros []) ltac:(lia) ltac:(rewrite len_nil; lia) HN). rewrite len_nil, Z.add_0_r.
      replace (take (size_of_int (LOG_MAX - (len func + 2) - len msg)) (s_ ": ")) with (s_ ": ") by (symmetry; apply take_all; unfold size_of_int; destruct (Z.ltb_spec (LOG_MAX - (len func + 2) - len msg) 0); [lia|change (len (s_ ": ")) with 2; lia]).
      destruct (put_ok m2 pos (s_ ": " ++ [NUL]) ltac:(lia) ltac:(change (len (s_ ": " ++ [NUL])) with 3; lia)) as (m3 & E3 & H3 & K3). rewrite E3. clear E3. change (len (s_ ": " ++ [NUL])) with 3 in K3. apply holds_app in H3. destruct H3 as (H3 & _).
      unfold strncpy, size_of_int. destruct (Z.ltb_spec (LOG_MAX - (len func + 2) - len msg - 2) 0) as [BAD|_]; [lia|]. cbv zeta. set (n := LOG_MAX - (len func + 2) - len msg - 2) in *. assert (PN : pos + 2 + n = LOG_MAX) by lia.
      set (z := repeat NUL (Z.to_nat (n - len e))). assert (LZ : len z = Z.max 0 (n - len e)) by (unfold z, len; rewrite repeat_length; fold (len e); lia). assert (LT : len (take n e) = Z.min n (len e)) by (destruct (Z_le_gt_dec (len e) n); [rewrite take_all by lia; lia|rewrite take_len by lia; lia]).
      destruct (put_ok m3 (pos + 2) (take n e ++ z) ltac:(lia) ltac:(rewrite len_app; lia)) as (m4 & E4 & H4 & K4). rewrite E4. clear E4. apply holds_app in H4. destruct H4 as (H4 & H4Z).
      assert (W : holds m4 0 ((F ++ msg) ++ s_ ": " ++ take n e)).
      { apply holds_app. split; [|apply holds_app; split].
        - apply (holds_kept m2); [|exact HA]. intros i I. rewrite K4 by lia. apply K3. lia.
        - apply (holds_kept m3); [|rewrite Z.add_0_l, LFM; exact H3]. intros i I. change (len (s_ ": ")) with 2 in I. apply K4. lia.
        - rewrite Z.add_0_l, LFM. exact H4. }
      destruct (Z.leb_spec (n - len e) 0) as [FULL|ROOM].
      * destruct (put_ok m4 (LOG_MAX - 1) [NUL] ltac:(lia) ltac:(change (len [NUL]) with 1; lia)) as (m5 & E5 & H5 & K5). rewrite E5. clear E5. change (len [NUL]) with 1 in K5. exists m5, (take (LOG_MAX - 1) ((F ++ msg) ++ s_ ": " ++ e)), truncated. split; [reflexivity|].
        assert (LTT : len (take (LOG_MAX - 1) ((F ++ msg) ++ s_ ": " ++ e)) = LOG_MAX - 1) by (apply take_len; lia).
        split.
        -- apply text_holds; [apply cstring_take; apply cstring_app; split; [exact CFF|apply cstring_app; split; [exact CC|exact (CE e b eq_refl)]]|lia|lia|]. apply holds_app. split.
           ++ apply (holds_kept m4); [intros i I; apply K5; lia|]. destruct (take_split n e) as (r & Er). rewrite Er. rewrite !app_assoc. rewrite take_app_r by (rewrite <- app_assoc, len_app, LFM, len_app; change (len (s_ ": ")) with 2; lia). rewrite <- app_assoc. destruct (take_split (LOG_MAX - 1) ((F ++ msg) ++ s_ ": " ++ take n e)) as (r' & Er'). rewrite Er' in W. apply holds_app in W. apply W.
           ++ rewrite LTT, Z.add_0_l. exact H5.
        -- right. split; [lia|]. split; [reflexivity|]. destruct (take_split (LOG_MAX - 1) ((F ++ msg) ++ s_ ": " ++ e)) as (r & Er). exists r. split; [exact Er|lia].
      * exists m4, ((F ++ msg) ++ s_ ": " ++ e), (if b then truncated else []). split; [reflexivity|]. rewrite take_all in * by lia. split.
        -- apply text_holds; [apply cstring_app; split; [exact CFF|apply cstring_app; split; [exact CC|exact (CE e b eq_refl)]]|lia|lia|]. apply holds_app. split; [exact W|]. rewrite Z.add_0_l, LFULL. apply holds_nul. assert (ZN : z = NUL :: repeat NUL (Z.to_nat (n - len e - 1))) by (unfold z; replace (Z.to_nat (n - len e)) with (S (Z.to_nat (n - len e - 1))) by lia; reflexivity). specialize (H4Z 0 ltac:(lia)). rewrite ZN in H4Z. rewrite Z.add_0_r in H4Z. replace (len func + 2 + len msg + 2 + len e) with (pos + 2 + len e) by lia. exact H4Z.
        -- left. split; [lia|]. split; reflexivity.
    + exists m2, (take (LOG_MAX - 1) (F ++ msg)), truncated. split; [reflexivity|]. split; [exact T2|]. right. split; [lia|]. split; [reflexivity|]. destruct (take_split (LOG_MAX - 1) (F ++ msg)) as (r & Er). exists (r ++ s_ ": " ++ e). split; [rewrite Er at 1; rewrite <- app_assoc; reflexivity|]. destruct (Z_le_gt_dec (len (F ++ msg)) (LOG_MAX - 1)); [rewrite take_all by lia; lia|rewrite take_len by lia; lia].
  - assert (MS : message func msg None = F ++ msg) by (unfold message, F; rewrite app_nil_r, <- app_assoc; reflexivity). rewrite MS. exists m2, (take (LOG_MAX - 1) (F ++ msg)). destruct (Z.leb_spec (LOG_MAX - (len func + 2) - len msg) 0) as [R|R].
    + exists truncated. split; [reflexivity|]. split; [exact T2|]. right. split; [lia|]. split; [reflexivity|]. destruct (take_split (LOG_MAX - 1) (F ++ msg)) as (r & Er). exists r. split; [exact Er|]. rewrite take_len by lia. lia.
    + exists []. split; [reflexivity|]. split; [exact T2|]. left. split; [lia|]. split; [apply take_all; lia|reflexivity].
Qed.
Lemma header_short : forall c date ids, len date < LOG_HEADER -> len (header c date ids) < LOG_HEADER.
Proof.
  intros c date ids L. assert (LH : LOG_HEADER = 256) by reflexivity. pose proof (len_nonneg date). pose proof (len_nonneg ids). unfold header. cbv zeta. rewrite len_app. assert (T : forall n, 0 <= n -> len (take n ids) <= n) by (intros n N; destruct (Z_le_gt_dec (len ids) n); [rewrite take_all by lia; lia|rewrite take_len by lia; lia]).
  destruct (timestamp c), (pid c); rewrite ?len_nil; try lia.
  - specialize (T (LOG_HEADER - len date - 1) ltac:(lia)). lia.
  - specialize (T (LOG_HEADER - 0 - 1) ltac:(lia)). lia.
Qed.
Lemma line_ok : forall c m date ids l func msg err, len date < LOG_HEADER -> len func <= LOG_MAX - 2 -> cstring func -> cstring msg -> (forall e b, err = Some (e, b) -> cstring e) -> heard c l ->
  exists t post, shows (message func msg err) (cut_error err) t post /\
    log_line c m date ids l func msg err = Line (match out c with Some o => o | None => Stderr end) (s_ "[" ++ header c date ids ++ level_name l ++ s_ " UMF] " ++ t ++ post ++ ["010"%char]) (rank (flush_lvl c) <=? rank l).
Proof.
  intros c m date ids l func msg err LD LF CF CM CE (H1 & H2). destruct (body_ok m func msg err LF CF CM CE) as (m' & t & post & E & T & S). exists t, post. split; [exact S|].
  assert (X : (if rank l <? rank (lvl c) then Quiet else match body m func msg err with None => Over | Some (m, post) => match text_at m 0 with None => Over | Some t => Line (match out c with Some o => o | None => Stderr end) (take (LOG_MAX + LOG_HEADER * 2 - 1) (s_ "[" ++ header c date ids ++ level_name l ++ s_ " UMF] " ++ t ++ post ++ ["010"%char])) (rank (flush_lvl c) <=? rank l) end end) = Line (match out c with Some o => o | None => Stderr end) (s_ "[" ++ header c date ids ++ level_name l ++ s_ " UMF] " ++ t ++ post ++ ["010"%char]) (rank (flush_lvl c) <=? rank l)).
  { destruct (Z.ltb_spec (rank l) (rank (lvl c))); [lia|]. rewrite E, T. f_equal. apply take_all. assert (LM : LOG_MAX = 8192) by reflexivity. assert (LH : LOG_HEADER = 256) by reflexivity. pose proof (header_short c date ids LD) as HS. rewrite !len_app. change (len (s_ "[")) with 1. change (len (s_ " UMF] ")) with 6. change (len ["010"%char]) with 1.
    assert (LL : len (level_name l) = 5) by (destruct l; reflexivity). assert (LP : len post <= 14) by (destruct S as [(_ & _ & ->)|(_ & -> & _)]; [destruct (cut_error err)|]; vm_compute; discriminate). assert (LT : len t < LOG_MAX) by (destruct S as [(A & -> & _)|(_ & _ & r & _ & A)]; lia). lia. }
  unfold log_line. destruct (out c) as [o|] eqn:O; [exact X|]. destruct l; try exact X; destruct H1 as [H1|H1]; solve [congruence].
Qed.
Lemma line_quiet : forall c m date ids l func msg err, ~ heard c l -> log_line c m date ids l func msg err = Quiet.
Proof.
  intros c m date ids l func msg err N. unfold heard in N. unfold log_line. destruct (out c) as [o|] eqn:O.
  - destruct (Z.ltb_spec (rank l) (rank (lvl c))) as [L|L]; [reflexivity|]. exfalso. apply N. split; [left; discriminate|lia].
  - destruct l; try reflexivity. destruct (Z.ltb_spec (rank Fatal) (rank (lvl c))) as [L|L]; [reflexivity|]. exfalso. apply N. split; [right; reflexivity|lia].
Qed.
Lemma line_over : forall c m date ids l func msg err, heard c l -> LOG_MAX - 2 < len func -> len func + len msg < 2 ^ 31 -> log_line c m date ids l func msg err = Over.
Proof.
  intros c m date ids l func msg err (H1 & H2) LF LS. assert (LM : LOG_MAX = 8192) by reflexivity. pose proof (len_nonneg msg). assert (L2 : len (func ++ s_ ": ") = len func + 2) by (rewrite len_app; reflexivity).
  assert (B : body m func msg err = None).
  { unfold body. destruct (print_ok m 0 LOG_MAX (func ++ s_ ": ")) as (m1 & E1 & _); [lia|lia|lia|]. rewrite E1. cbv zeta. unfold print, size_of_int. destruct (Z.ltb_spec (LOG_MAX - (len func + 2)) 0) as [_|BAD]; [|lia]. destruct (Z.eqb_spec (LOG_MAX - (len func + 2) + 2 ^ 64) 0) as [BAD|_]; [lia|]. unfold put. destruct (Z.eqb_spec (len (take (LOG_MAX - (len func + 2) + 2 ^ 64 - 1) msg ++ [NUL])) 0) as [BAD|_]; [rewrite len_app in BAD; change (len [NUL]) with 1 in BAD; pose proof (len_nonneg (take (LOG_MAX - (len func + 2) + 2 ^ 64 - 1) msg)); lia|]. rewrite len_app. change (len [NUL]) with 1. pose proof (len_nonneg (take (LOG_MAX - (len func + 2) + 2 ^ 64 - 1) msg)) as P. destruct (Z.leb_spec (len func + 2 + (len (take (LOG_MAX - (len func + 2) + 2 ^ 64 - 1) msg) + 1)) LOG_MAX) as [BAD|_]; [lia|]. rewrite andb_false_r. reflexivity. }
  unfold log_line. destruct (Z.ltb_spec (rank l) (rank (lvl c))) as [BAD|_]; [lia|]. rewrite B. destruct (out c); [reflexivity|]. destruct l; try reflexivity; destruct H1 as [H1|H1]; solve [congruence].
Qed.
