From Verif Require Import Base Model_Utils Spec_Utils Proof_Utils Model_OsNuma Model_OsProvider Spec_OsProvider.

(* ---------------- rounding ---------------- *)
Lemma up_spec : forall page len, 0 < page -> up page len mod page = 0 /\ len <= up page len < len + page.
Proof.
  intros page len P. unfold up. split; [apply Z.mod_mul; lia|].
  pose proof (Z.div_mod (len + page - 1) page). pose proof (Z.mod_pos_bound (len + page - 1) page P). nia.
Qed.
Lemma up_unique : forall page len y, 0 < page -> y mod page = 0 -> len <= y < len + page -> up page len = y.
Proof.
  intros page len y P M B. destruct (up_spec page len P) as [U1 U2]. apply Z.mod_divide in M; [|lia]. apply Z.mod_divide in U1; [|lia].
  destruct M as [a ->], U1 as [b E]. rewrite E in *. assert (a = b) by nia. now subst.
Qed.
Lemma up_multiple : forall page len, 0 < page -> len mod page = 0 -> up page len = len.
Proof. intros. apply up_unique; try assumption. lia. Qed.
Lemma up_plus : forall page a b, 0 < page -> a mod page = 0 -> up page (a + b) = a + up page b.
Proof.
  intros page a b P A. destruct (up_spec page b P) as [U1 U2]. apply up_unique; [exact P| |lia].
  rewrite Zplus_mod, A, U1. apply Zmod_0_l.
Qed.
Lemma up_nonneg : forall page len, 0 < page -> 0 <= len -> 0 <= up page len.
Proof. intros page len P L. destruct (up_spec page len P). lia. Qed.
Lemma within_iff : forall page a len x, within page a len x = true <-> a <= x < a + up page len.
Proof. intros. unfold within. lia. Qed.
Lemma within_niff : forall page a len x, within page a len x = false <-> ~ (a <= x < a + up page len).
Proof. intros. unfold within. lia. Qed.
Lemma mod0_plus : forall p a b, a mod p = 0 -> b mod p = 0 -> (a + b) mod p = 0.
Proof. intros p a b A B. rewrite Zplus_mod, A, B. apply Zmod_0_l. Qed.
Lemma mod0_minus : forall p a b, a mod p = 0 -> b mod p = 0 -> (a - b) mod p = 0.
Proof. intros p a b A B. rewrite Zminus_mod, A, B. apply Zmod_0_l. Qed.
Lemma mod0_trans : forall p a x, 0 < p -> 0 < a -> a mod p = 0 -> x mod a = 0 -> x mod p = 0.
Proof.
  intros p a x P A M X. apply Z.mod_divide in M; [|lia]. apply Z.mod_divide in X; [|lia]. apply Z.mod_divide; [lia|]. eapply Z.divide_trans; eassumption.
Qed.
Lemma mask_mod : forall page x, pow2 page -> Z.land x (wrap (page - 1)) = x mod page.
Proof.
  intros page x (n & N & ->). rewrite pow2_mask by lia. rewrite <- Z.ones_equiv || idtac.
  replace (2 ^ n - 1) with (Z.ones n) by (rewrite Z.ones_equiv; lia). apply Z.land_ones. lia.
Qed.

(* ---------------- utils_mmap_aligned ---------------- *)
Definition shows (foff : option Z) (a x : Z) : backing := match foff with Some o => File (o + (x - a)) | None => Anon end.
Lemma mmap_aligned_ok : forall dbg page fd max size_fd size al mm m, pow2 page -> 0 <= size -> 0 <= al ->
  (al = 0 \/ al mod page = 0 \/ page mod al = 0) -> size + al + page <= 2 ^ 63 ->
  (fd = true -> 0 <= size_fd <= max /\ max < 2 ^ 63) ->
  exists out ev size', utils_mmap_aligned false page fd max size_fd size al mm = Some (out, ev, size', if fd then if max <? size_fd + (if page <? al then size + al else size) then 0 else size_fd else 0) /\
    (fd = true -> size_fd <= size' <= max) /\ (fd = false -> size' = size_fd) /\
    (out = None -> forall x, after_all page m ev x = m x) /\ (out = None <-> mm = None \/ fd = true /\ max < size_fd + (if page <? al then size + al else size)) /\
    (kernel page m ev -> utils_mmap_aligned dbg page fd max size_fd size al mm = utils_mmap_aligned false page fd max size_fd size al mm) /\
    (kernel page m ev -> forall p, out = Some p ->
      exists a, mm = Some a /\ p mod page = 0 /\ (0 < al -> p mod al = 0) /\ a <= p /\ (al <= page -> p = a) /\ 0 < p /\ p + up page size <= 2 ^ 63 /\ p + up page size <= a + up page (if page <? al then size + al else size) /\
        (forall x, within page p size x = true -> m x = None) /\
        (forall x, after_all page m ev x = if within page p size x then Some (shows (if fd then Some size_fd else None) a x) else m x) /\
        (fd = true -> size_fd mod page = 0 /\ (p - a) + up page size <= up page (size' - size_fd)) /\
        (forall q n ok, In (Munmap q n ok) ev -> a <= q /\ q mod page = 0 /\ 0 < n /\ q + up page n <= a + up page (if page <? al then size + al else size))).
Proof.
  intros dbg page fd max size_fd size al mm m PG S0 A0 AL NW FD. pose proof (pow2_range _ PG) as PR.
  assert (UU : U64 = 18446744073709551616) by reflexivity.
  assert (P63 : 2 ^ 63 = 9223372036854775808) by reflexivity.
  unfold utils_mmap_aligned. set (big := page <? al).
  assert (EXT : (if big then wrap (size + al) else size) = if big then size + al else size).
  { destruct big; [|reflexivity]. unfold wrap. apply Z.mod_small. lia. }
  rewrite EXT. set (ext := if big then size + al else size) in *.
  assert (EB : 0 <= ext <= 2 ^ 63 - page) by (unfold ext; destruct big; lia).
  assert (FW : fd = true -> wrap (size_fd + ext) = size_fd + ext).
  { intros F. destruct (FD F). unfold wrap. apply Z.mod_small. lia. }
  destruct (fd && (max <? wrap (size_fd + ext))) eqn:CK.
  { apply andb_true_iff in CK. destruct CK as [F CK]. rewrite F. rewrite (FW F) in CK. rewrite CK.
    exists None, [], size_fd. split; [reflexivity|]. destruct (FD F). split; [lia|]. split; [discriminate|]. split; [reflexivity|]. split; [split; [intros _; right; split; [reflexivity|]; clear - CK; lia|auto]|]. split; [reflexivity|]. intros _ p [=]. }
  assert (OFF : (if fd then if max <? size_fd + ext then 0 else size_fd else 0) = if fd then size_fd else 0).
  { destruct fd; [|reflexivity]. cbn [andb] in CK. rewrite (FW eq_refl) in CK. now rewrite CK. }
  rewrite OFF.
  assert (NR : ~ (fd = true /\ max < size_fd + ext)).
  { intros [F L]. rewrite F in CK. cbn [andb] in CK. rewrite (FW F) in CK. lia. }
  assert (SZ' : (if fd then wrap (size_fd + ext) else size_fd) = if fd then size_fd + ext else size_fd) by (destruct fd; [now apply FW|reflexivity]).
  rewrite SZ'. set (size' := if fd then size_fd + ext else size_fd).
  assert (SR : (fd = true -> size_fd <= size' <= max) /\ (fd = false -> size' = size_fd)).
  { split; intros F; unfold size'; rewrite F; [|reflexivity]. rewrite F in CK. cbn [andb] in CK. rewrite (FW F) in CK. lia. }
  destruct SR as [SR1 SR2].
  set (foff := if fd then Some (if fd then size_fd else 0) else None).
  assert (FO : foff = if fd then Some size_fd else None) by (unfold foff; destruct fd; reflexivity).
  destruct mm as [a|].
  2: { exists None, [MmapFail ext foff], size'. split; [reflexivity|]. split; [exact SR1|]. split; [exact SR2|]. split; [reflexivity|]. split; [tauto|]. split; [reflexivity|]. intros _ p [=]. }
  destruct big eqn:BG.
  - (* larger than a page *)
    assert (AP : page < al) by (unfold big in BG; lia).
    assert (AM : al mod page = 0).
    { destruct AL as [?|[?|H]]; [lia|assumption|]. exfalso. rewrite Z.mod_small in H by lia. lia. }
    set (rest := a mod al). assert (RB : 0 <= rest < al) by (apply Z.mod_pos_bound; lia).
    set (p := if rest =? 0 then a else a + (al - rest)).
    (* facts that need the kernel's answer *)
    assert (K : (exists x, 0 < a /\ a mod page = 0 /\ a + up page ext <= 2 ^ 63 /\ x = 0) ->
      (if rest =? 0 then a else wrap (a + (al - rest))) = p /\ p mod al = 0 /\ p mod page = 0 /\ a <= p /\ p + page <= a + al /\
      wrap (p - a) = p - a /\ wrap (p + size) = p + size /\
      (if Z.land (p + size) (wrap (page - 1)) =? 0 then p + size else Z.land (wrap (p + size + page)) (wnot (wrap (page - 1)))) = p + up page size /\
      wrap (wrap (a + ext) - (p + up page size)) = a + ext - (p + up page size) /\ 0 < a + ext - (p + up page size) /\
      up page (a + ext - (p + up page size)) = a + up page ext - (p + up page size) /\ p + up page size <= a + up page ext).
    { intros (_ & A1 & A2 & A3 & _).
      destruct (up_spec page ext) as [UE1 UE2]; [lia|]. destruct (up_spec page size) as [US1 US2]; [lia|].
      assert (EE : ext = size + al) by reflexivity.
      assert (RM : rest mod page = 0).
      { assert (rest = a - al * (a / al)) by (unfold rest; rewrite Z.mod_eq by lia; reflexivity). rewrite H.
        apply mod0_minus; [exact A2|]. rewrite Zmult_mod, AM. rewrite Z.mul_0_l. apply Zmod_0_l. }
      assert (PA : p mod al = 0).
      { unfold p. destruct (Z.eqb_spec rest 0) as [R|R]; [exact R|]. replace (a + (al - rest)) with (al * (a / al + 1)); [rewrite Z.mul_comm; apply Z.mod_mul; lia|].
        unfold rest. rewrite (Z.mod_eq a al) by lia. lia. }
      assert (PM : p mod page = 0) by (eapply (mod0_trans page al); try eassumption; lia).
      assert (PR2 : a <= p /\ p - a <= al - page).
      { unfold p. destruct (Z.eqb_spec rest 0) as [R|R]; [lia|].
        assert (page <= rest). { destruct (Z.lt_ge_cases rest page) as [L|G]; [|exact G]. rewrite Z.mod_small in RM by lia. lia. }
        lia. }
      assert (PSM : (p + size) mod page = size mod page) by (rewrite Zplus_mod, PM, Z.add_0_l, Zmod_mod; reflexivity).
      assert (UPE : up page ext = al + up page size) by (rewrite EE, Z.add_comm; apply up_plus; [lia|exact AM]).
      split. { unfold p. destruct (Z.eqb_spec rest 0); [reflexivity|]. unfold wrap. apply Z.mod_small. lia. }
      split; [exact PA|]. split; [exact PM|]. split; [lia|]. split; [lia|].
      split. { unfold wrap. apply Z.mod_small. lia. }
      split. { unfold wrap. apply Z.mod_small. lia. }
      split.
      { rewrite mask_mod by exact PG. rewrite PSM. destruct (Z.eqb_spec (size mod page) 0) as [E|E].
        - now rewrite up_multiple by (try exact E; lia).
        - change (Z.land (wrap (p + size + page)) (wnot (wrap (page - 1)))) with (ALIGN_DOWN (wrap (p + size + page)) page).
          assert (W : wrap (p + size + page) = p + size + page) by (unfold wrap; apply Z.mod_small; lia). rewrite W.
          rewrite align_down_val by (try exact PG; unfold is_word; lia).
          assert (H : up page size = size + page - (p + size + page) mod page); [|lia].
          apply up_unique; [lia| |].
          + replace (size + page - (p + size + page) mod page) with ((p + size + page - (p + size + page) mod page) - p) by lia.
            apply mod0_minus; [|exact PM]. rewrite Zminus_mod, Zmod_mod, Z.sub_diag. apply Zmod_0_l.
          + pose proof (Z.mod_pos_bound (p + size + page) page).
            assert ((p + size + page) mod page = size mod page). { rewrite <- PSM. replace (p + size + page) with (p + size + 1 * page) by lia. apply Z.mod_add. lia. }
            rewrite H0 in *. lia. }
      split. { unfold wrap. rewrite (Z.mod_small (a + ext)) by lia. apply Z.mod_small. lia. }
      split; [lia|].
      split; [|lia].
      apply up_unique; [lia| |lia]. apply mod0_minus; [apply mod0_plus; assumption|apply mod0_plus; assumption]. }
    set (al' := if rest =? 0 then a else wrap (a + (al - rest))) in *.
    cbn [andb]. eexists _, _, size'. split; [reflexivity|]. split; [exact SR1|]. split; [exact SR2|]. split; [discriminate|]. split; [split; [discriminate|intros [?|?]; [discriminate|tauto]]|].
    cbv zeta. cbn [app kernel mmap_legal].
    split.
    { intros ((K1 & K2 & K3 & K4 & _) & _). destruct K as (E1 & E2 & E3 & E4 & E5 & E6 & E7 & E8 & E9 & E10 & E11 & E12); [exists 0; auto|].
      rewrite E1, E7, E8, !mask_mod by exact PG. rewrite E3.
      assert (T1 : (p + up page size) mod page = 0) by (apply mod0_plus; [exact E3|apply up_spec; lia]). rewrite T1.
      assert (T2 : p + up page size <? p + size = false). { destruct (up_spec page size); lia. } rewrite T2.
      cbn [Z.eqb negb orb]. rewrite andb_false_r. reflexivity. }
    intros ((K1 & K2 & K3 & K4 & K5 & K6) & _) p' [= <-]. destruct K as (E1 & E2 & E3 & E4 & E5 & E6 & E7 & E8 & E9 & E10 & E11 & E12); [exists 0; auto|].
    rewrite E1, E6, E7, E8, E9.
    assert (T0 : 0 <? a + ext - (p + up page size) = true) by lia. rewrite T0.
    exists a. split; [reflexivity|]. split; [exact E3|]. split; [intros _; exact E2|]. split; [exact E4|]. split; [lia|]. split; [lia|].
    split; [lia|]. split; [exact E12|].
    destruct (up_spec page size) as [US1 US2]; [lia|].
    assert (HU : up page (p - a) = p - a) by (apply up_multiple; [lia|apply mod0_minus; assumption]).
    split. { intros x X. apply K6. rewrite within_iff in *. lia. }
    split.
    { intros x. rewrite <- FO. unfold shows.
      destruct (Z.ltb_spec 0 (p - a)) as [HP|HP]; cbn [app after_all fold_left after]; unfold within; rewrite ?HU, E11;
        destruct (Z.leb_spec p x), (Z.ltb_spec x (p + up page size)), (Z.leb_spec a x), (Z.ltb_spec x (a + up page ext)), (Z.leb_spec (p + up page size) x),
          (Z.ltb_spec x (p + up page size + (a + up page ext - (p + up page size)))), (Z.ltb_spec x (a + (p - a))); cbn [andb]; try lia; try reflexivity;
        symmetry; apply K6; rewrite within_iff; lia. }
    split.
    { intros F. unfold size'. rewrite F in *. split; [rewrite FO in K5; exact K5|]. replace (size_fd + ext - size_fd) with ext by lia. lia. }
    intros q n ok IN.
    assert (IN' : (q = a /\ n = p - a /\ 0 < p - a) \/ (q = p + up page size /\ n = a + ext - (p + up page size))).
    { destruct (Z.ltb_spec 0 (p - a)) as [HP|HP]; cbn [app In] in IN.
      - destruct IN as [[=]|[[= <- <- _]|[[= <- <- _]|[]]]]; [left; auto|right; auto].
      - destruct IN as [[=]|[[= <- <- _]|[]]]. right; auto. }
    destruct IN' as [(-> & -> & HP)|(-> & ->)].
    + rewrite HU. split; [lia|]. split; [exact K3|]. split; [exact HP|]. lia.
    + rewrite E11. split; [lia|]. split; [apply mod0_plus; assumption|]. split; [lia|]. lia.
  - exists (Some a), [Mmap a ext foff], size'. split; [reflexivity|]. split; [exact SR1|]. split; [exact SR2|]. split; [discriminate|]. split; [split; [discriminate|intros [?|?]; [discriminate|tauto]]|].
    split; [reflexivity|]. cbn [kernel mmap_legal]. intros ((K1 & K2 & K3 & K4 & K5 & K6) & _) p [= <-].
    assert (EE : ext = size) by reflexivity.
    exists a. split; [reflexivity|]. split; [exact K3|].
    split. { intros AP. destruct AL as [?|[H|H]]; [lia| |eapply (mod0_trans al page); try eassumption; lia].
      assert (al <= page) by (unfold big in BG; lia). destruct (Z.eq_dec al page) as [->|]; [exact K3|]. rewrite Z.mod_small in H by lia. lia. }
    split; [lia|]. split; [reflexivity|]. split; [exact K2|]. rewrite EE in *. split; [exact K4|]. split; [apply Z.le_refl|]. split; [exact K6|].
    split. { intros x. cbn [after_all fold_left after]. rewrite FO. reflexivity. }
    split. { intros F. unfold size'. rewrite F in *. split; [rewrite FO in K5; exact K5|]. rewrite EE. replace (size_fd + size - size_fd) with size by lia. lia. }
    intros q n ok [[=]|[]].
Qed.

(* ---------------- os_alloc ---------------- *)
Lemma kernel_app : forall page l r m, kernel page m (l ++ r) -> kernel page m l.
Proof. intros page l. induction l as [|e l IH]; intros r m; cbn [app kernel]; [auto|]. intros [A B]. split; [exact A|]. eapply IH, B. Qed.
Lemma after_all_app : forall page l r m, after_all page m (l ++ r) = after_all page (after_all page m l) r.
Proof. intros. unfold after_all. apply fold_left_app. Qed.
Lemma after_binds : forall page l m, after_all page m (map SBind l) = m.
Proof. intros page l. induction l as [|c l IH]; intros m; [reflexivity|]. cbn. apply IH. Qed.

Definition fits (s : osp) (ext : Z) : Prop := o_fd s = true -> o_size s + ext <= o_max s.
Definition extent (page size al : Z) : Z := if page <? al then size + al else size.

Lemma os_alloc_ok : forall dbg page s size al mm be m r p ev s', pow2 page -> 0 < size -> 0 <= al -> size + al + page <= 2 ^ 63 ->
  (o_fd s = true -> 0 <= o_size s <= o_max s /\ o_max s < 2 ^ 63) ->
  os_alloc false page s size al mm be = Some (r, p, ev, s') -> kernel page m ev ->
  os_alloc dbg page s size al mm be = Some (r, p, ev, s') /\
  o_fd s' = o_fd s /\ o_max s' = o_max s /\ (o_fd s = true -> o_size s <= o_size s' <= o_max s) /\
  (r <> SUCCESS -> p = 0 /\ same m (after_all page m ev) /\ o_map s' = o_map s /\ o_allocated s' = o_allocated s /\ o_peak s' = o_peak s) /\
  (r = SUCCESS ->
    o_allocated s' = wrap (o_allocated s + size) /\ o_peak s' = Z.max (o_peak s) (o_allocated s') /\
    o_map s' = (if o_fd s then match map_insert (o_map s) p (o_size s + 1) with Some l => l | None => o_map s end else o_map s) /\
    exists a, mm = Some a /\ p mod page = 0 /\ (0 < al -> p mod al = 0) /\ a <= p /\ (al <= page -> p = a) /\ 0 < p /\ p + up page size <= 2 ^ 63 /\
      (forall x, within page p size x = true -> m x = None) /\
      (forall x, after_all page m ev x = if within page p size x then Some (shows (if o_fd s then Some (o_size s) else None) a x) else m x) /\
      (o_fd s = true -> o_size s mod page = 0 /\ (p - a) + up page size <= up page (o_size s' - o_size s))) /\
  (forall q n ok, In (Munmap q n ok) ev -> exists a, mm = Some a /\ a <= q /\ q mod page = 0 /\ 0 < n /\ q + up page n <= a + up page (extent page size al)) /\
  (be = None -> (r = SUCCESS <-> (al = 0 \/ al mod page = 0 \/ page mod al = 0) /\ mm <> None /\ fits s (extent page size al))).
Proof.
  intros dbg page s size al mm be m r p ev s' PG S0 A0 NW FD H KER. pose proof (pow2_range _ PG) as PR.
  unfold os_alloc in *.
  destruct (negb (al =? 0) && negb (al mod page =? 0) && negb (page mod al =? 0)) eqn:AC.
  { injection H as <- <- <- <-. split; [reflexivity|]. do 2 (split; [reflexivity|]). split; [intros F; destruct (FD F); lia|].
    split. { intros _. repeat split; reflexivity. } split; [discriminate|]. split; [intros q n ok []|].
    intros _. split; [discriminate|]. intros [X _]. exfalso. lia. }
  assert (AL : al = 0 \/ al mod page = 0 \/ page mod al = 0) by lia.
  destruct (mmap_aligned_ok dbg page (o_fd s) (o_max s) (o_size s) size al mm m PG ltac:(lia) A0 AL NW FD) as (out & ev1 & size' & ME & M1 & M2 & M3 & M4 & M5 & M6).
  fold (extent page size al) in *.
  rewrite ME in *.
  assert (KE : kernel page m ev1).
  { destruct out as [addr|].
    2: { injection H as <- <- <- <-. exact KER. }
    destruct ((0 <? al) && negb (addr mod al =? 0)); [injection H as <- <- <- <-; eapply kernel_app, KER|].
    destruct (policy_default _); [injection H as <- <- <- <-; eapply kernel_app, KER|].
    destruct (ALIGN_UP_SAFE size page =? 0); [injection H as <- <- <- <-; eapply kernel_app, KER|].
    destruct (os_bind _ _ _ _) as [[calls u]|]; [|discriminate].
    destruct be as [k|]; [destruct (Nat.ltb _ _)|]; injection H as <- <- <- <-; eapply kernel_app, KER. }
  specialize (M5 KE). specialize (M6 KE). rewrite M5. split; [exact H|]. clear M5.
  destruct out as [addr|].
  2: { injection H as <- <- <- <-. cbn [o_fd o_max o_size o_map o_allocated o_peak]. do 2 (split; [reflexivity|]). split; [exact M1|].
    split. { intros _. split; [reflexivity|]. split; [intros x; symmetry; apply M3; reflexivity|]. repeat split; reflexivity. }
    split; [discriminate|]. destruct M4 as [M4 _]. specialize (M4 eq_refl).
    split. { intros q n ok IN. exfalso. clear - ME IN. unfold utils_mmap_aligned in ME.
      match type of ME with (if ?c then _ else _) = _ => destruct c end; [injection ME as <- _ _; destruct IN|].
      destruct mm; [|injection ME as <- _ _; destruct IN as [[=]|[]]].
      cbn [andb] in ME. cbv zeta in ME. destruct (page <? al); discriminate. }
    intros _. split; [discriminate|]. intros (_ & X1 & X2). destruct M4 as [M4|[M4 M4']]; [contradiction|]. specialize (X2 M4). lia. }
  destruct (M6 _ eq_refl) as (a & B1 & B2 & B3 & B4 & B5 & B6 & B7 & B8 & B9 & B10 & B11 & B12). clear M6.
  assert (OUT : Some addr <> None) by discriminate.
  assert (FIT : mm <> None /\ fits s (extent page size al)).
  { split; [now rewrite B1|]. intros F. destruct (Z.le_gt_cases (o_size s + extent page size al) (o_max s)); [assumption|]. exfalso.
    destruct M4 as [_ M4]. apply OUT. apply M4. right. split; [exact F|lia]. }
  assert (AM : (0 <? al) && negb (addr mod al =? 0) = false).
  { destruct (Z.ltb_spec 0 al) as [L|L]; [|reflexivity]. rewrite (B3 L). reflexivity. }
  rewrite AM in H.
  assert (OFF : o_fd s = true -> (if o_max s <? o_size s + extent page size al then 0 else o_size s) = o_size s).
  { intros F. destruct FIT as [_ FIT]. specialize (FIT F). destruct (Z.ltb_spec (o_max s) (o_size s + extent page size al)); [lia|reflexivity]. }
  assert (FIN : forall u bs r p ev s',
    Some (SUCCESS, addr, ev1 ++ map SBind bs,
      Osp (o_fd s) (o_max s) size' (if o_fd s then match map_insert (o_map s) addr (wrap ((if o_fd s then if o_max s <? o_size s + extent page size al then 0 else o_size s else 0) + 1)) with Some l => l | None => o_map s end else o_map s)
        u (wrap (o_allocated s + size)) (Z.max (o_peak s) (wrap (o_allocated s + size)))) = Some (r, p, ev, s') ->
    o_fd s' = o_fd s /\ o_max s' = o_max s /\ (o_fd s = true -> o_size s <= o_size s' <= o_max s) /\
    (r <> SUCCESS -> p = 0 /\ same m (after_all page m ev) /\ o_map s' = o_map s /\ o_allocated s' = o_allocated s /\ o_peak s' = o_peak s) /\
    (r = SUCCESS ->
      o_allocated s' = wrap (o_allocated s + size) /\ o_peak s' = Z.max (o_peak s) (o_allocated s') /\
      o_map s' = (if o_fd s then match map_insert (o_map s) p (o_size s + 1) with Some l => l | None => o_map s end else o_map s) /\
      exists a, mm = Some a /\ p mod page = 0 /\ (0 < al -> p mod al = 0) /\ a <= p /\ (al <= page -> p = a) /\ 0 < p /\ p + up page size <= 2 ^ 63 /\
        (forall x, within page p size x = true -> m x = None) /\
        (forall x, after_all page m ev x = if within page p size x then Some (shows (if o_fd s then Some (o_size s) else None) a x) else m x) /\
        (o_fd s = true -> o_size s mod page = 0 /\ (p - a) + up page size <= up page (o_size s' - o_size s))) /\
    (forall q n ok, In (Munmap q n ok) ev -> exists a, mm = Some a /\ a <= q /\ q mod page = 0 /\ 0 < n /\ q + up page n <= a + up page (extent page size al)) /\
    (be = None -> (r = SUCCESS <-> (al = 0 \/ al mod page = 0 \/ page mod al = 0) /\ mm <> None /\ fits s (extent page size al)))).
  { intros u bs r0 p0 ev0 s0 E. injection E as <- <- <- <-. cbn [o_fd o_max o_size o_map o_allocated o_peak]. do 2 (split; [reflexivity|]). split; [exact M1|].
    split; [congruence|].
    split.
    { intros _. do 2 (split; [reflexivity|]). split.
      - destruct (o_fd s) eqn:F; [|reflexivity]. rewrite (OFF eq_refl).
        assert (W : wrap (o_size s + 1) = o_size s + 1). { unfold wrap. apply Z.mod_small. destruct (FD eq_refl). change U64 with (2 ^ 64). lia. } rewrite W. reflexivity.
      - exists a. rewrite after_all_app, after_binds. do 7 (split; [assumption|]). split; [exact B9|]. split; [exact B10|]. exact B11. }
    split.
    { intros q n ok IN. apply in_app_or in IN. destruct IN as [IN|IN]; [|apply in_map_iff in IN; destruct IN as (c & [=] & _)].
      exists a. split; [exact B1|]. eapply B12, IN. }
    intros _. split; [intros _; auto|reflexivity]. }
  assert (UNDO : forall u bs r p ev s', r <> SUCCESS -> be <> None \/ ALIGN_UP_SAFE size page = 0 ->
    forall rr, Some (rr, 0, ev1 ++ map SBind bs ++ [Munmap addr size (0 <? size)], Osp (o_fd s) (o_max s) size' (o_map s) u (o_allocated s) (o_peak s)) = Some (r, p, ev, s') ->
    o_fd s' = o_fd s /\ o_max s' = o_max s /\ (o_fd s = true -> o_size s <= o_size s' <= o_max s) /\
    (r <> SUCCESS -> p = 0 /\ same m (after_all page m ev) /\ o_map s' = o_map s /\ o_allocated s' = o_allocated s /\ o_peak s' = o_peak s) /\
    (forall q n ok, In (Munmap q n ok) ev -> exists a, mm = Some a /\ a <= q /\ q mod page = 0 /\ 0 < n /\ q + up page n <= a + up page (extent page size al))).
  { intros u bs r0 p0 ev0 s0 NS _ rr E. injection E as <- <- <- <-. cbn [o_fd o_max o_size o_map o_allocated o_peak]. do 2 (split; [reflexivity|]). split; [exact M1|].
    split.
    { intros _. split; [reflexivity|]. split; [|repeat split; reflexivity].
      intros x. rewrite !after_all_app, after_binds. cbn [after_all fold_left]. destruct (Z.ltb_spec 0 size) as [_|L]; [|lia]. cbn [after].
      rewrite B10. destruct (within page addr size x) eqn:W; [apply B9, W|reflexivity]. }
    intros q n ok IN. exists a. split; [exact B1|].
    apply in_app_or in IN. destruct IN as [IN|IN]; [eapply B12, IN|]. apply in_app_or in IN.
    destruct IN as [IN|IN]; [apply in_map_iff in IN; destruct IN as (c & [=] & _)|]. destruct IN as [[= <- <- _]|[]].
    split; [exact B4|]. split; [exact B2|]. split; [exact S0|]. exact B8. }
  destruct (policy_default _); [eapply (FIN _ []), H|].
  destruct (Z.eqb_spec (ALIGN_UP_SAFE size page) 0) as [Z0|_].
  { exfalso. revert Z0. assert (W : is_word size). { unfold is_word. change U64 with (2 ^ 64). lia. }
    rewrite (align_up_safe_word size page PG W). assert (UU : U64 = 2 ^ 64) by reflexivity.
    pose proof (Z.mod_pos_bound (size + page - 1) page ltac:(lia)). destruct (Z.leb_spec U64 (size + page - 1)); lia. }
  destruct (os_bind _ _ _ _) as [[calls u]|]; [|discriminate].
  destruct be as [k|]; [destruct (Nat.ltb _ _)|]; try (eapply FIN, H).
  destruct (UNDO u (firstn (S k) calls) r p ev s') with (rr := ERR_PROVIDER_SPECIFIC) as (R1 & R2 & R3 & R4 & R5); [now injection H as <- _ _ _|left; discriminate|exact H|].
  do 4 (split; [assumption|]). split; [intros ->; discriminate H|]. split; [assumption|discriminate].
Qed.
