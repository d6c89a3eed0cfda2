From Coq Require Import Permutation.
From Verif Require Import Base Model_LevelZero Spec_LevelZero.

Lemma ze2umf_ok : forall c, ze2umf c = SUCCESS <-> c = 0.
Proof.
  intros c. unfold ze2umf. destruct (c =? 0) eqn:A; [split; [lia|reflexivity]|].
  destruct (c =? OOM); [split; [discriminate|lia]|]. destruct (c =? INVALID); split; try discriminate; lia.
Qed.
Lemma success_dec : forall r, {r = SUCCESS} + {r <> SUCCESS}.
Proof. intros r. decide equality. Qed.
Lemma is_success_spec : forall r, is_success r = true <-> r = SUCCESS.
Proof. intros []; split; try reflexivity; discriminate. Qed.

Definition block_from (c : call) (v : Z) : option block :=
  match c with
  | AllocHost ctx s _ => Some (Block v KHost ctx s) | AllocDevice ctx _ _ _ s _ => Some (Block v KDevice ctx s)
  | AllocShared ctx _ _ _ s _ => Some (Block v KShared ctx s) | _ => None end.
Definition mem_after (c : call) (v : Z) (l : list block) : list block :=
  match c with
  | Free ctx p | FreeExt ctx _ p => drop_block ctx p l
  | _ => match block_from c v with Some b => b :: l | None => l end
  end.
Definition fds_after (c : call) (v : Z) (l : list Z) : list Z :=
  match c with DupFd _ _ => v :: l | CloseFd fd => drop_fd fd l | _ => l end.
Definition res_after (c : call) (l : list (Z * Z)) : list (Z * Z) :=
  match c with
  | MakeResident _ dev p _ => (dev, p) :: l
  | Free _ p | FreeExt _ _ p => filter (fun x => negb (snd x =? p)) l
  | _ => l end.
Lemma drv_spec : forall O d c code v d', drv O d c = (code, v, d') ->
  made d' = (c, code) :: made d
  /\ memory d' = (if code =? 0 then mem_after c v (memory d) else memory d)
  /\ fds d' = (if code =? 0 then fds_after c v (fds d) else fds d)
  /\ resident d' = (if code =? 0 then res_after c (resident d) else resident d)
  /\ (code = 0 -> allocates c = true -> v <> 0 /\ live_at v (memory d) = false)
  /\ (code = 0 -> forall x y, c = DupFd x y -> 0 <= v)
  /\ (code <> 0 -> v = 0).
Proof.
  intros O d c code v d' H. unfold drv in H. destruct (O (length (made d))) as [code0 v0].
  set (cd := if _ && _ && _ then OOM else _) in H. destruct (cd =? 0) eqn:Z0.
  - assert (E : allocates c = true -> v0 <> 0 /\ live_at v0 (memory d) = false).
    { intros A. assert (X : live_at v0 (memory d) || (v0 =? 0) = false).
      { destruct (live_at v0 (memory d) || (v0 =? 0)) eqn:Y; [|reflexivity]. exfalso. unfold cd in Z0.
        destruct c; try discriminate A; cbn [andb] in Z0; destruct (code0 =? 0) eqn:W; cbn [andb] in Z0; try (vm_compute in Z0; discriminate Z0); congruence. }
      apply orb_false_elim in X as [X Y]. split; [lia | exact X]. }
    assert (F : forall x y, c = DupFd x y -> 0 <= v0).
    { intros x y ->. unfold cd in Z0. cbn [andb] in Z0. destruct (code0 =? 0) eqn:W; cbn [andb] in Z0; [|congruence].
      destruct (v0 <? 0) eqn:V; [vm_compute in Z0; discriminate Z0|lia]. }
    apply Z.eqb_eq in Z0.
    destruct c; injection H as <- <- <-; cbn [made memory fds resident mem_after fds_after res_after block_from allocates Z.eqb];
      (split; [rewrite Z0; reflexivity|]); repeat (split; [reflexivity|]);
      (split; [intros _ A; try discriminate A; exact (E A)|]); (split; [intros _ x y X; try discriminate X; exact (F _ _ X)|]); intros X; contradiction X; reflexivity.
  - injection H as <- <- <-. cbn [made memory fds resident]. apply Z.eqb_neq in Z0. replace (cd =? 0) with false by lia.
    repeat (split; [reflexivity|]). split; [intros X; contradiction|]. split; [intros X; contradiction|]. reflexivity.
Qed.
Lemma since_app : forall d1 d2 d3 l l', since d1 d2 l -> since d2 d3 l' -> since d1 d3 (l' ++ l).
Proof. intros d1 d2 d3 l l' A B. unfold since in *. rewrite B, A. apply app_assoc. Qed.
Lemma since_cons : forall O d c code v d', drv O d c = (code, v, d') -> since d d' [(c, code)].
Proof. intros O d c code v d' H. exact (proj1 (drv_spec _ _ _ _ _ _ H)). Qed.
Lemma ok_app : forall so l l', all_ok so (l ++ l') -> all_ok so l /\ all_ok so l'.
Proof. intros so l l' H. split; intros c e I; apply (H c e), in_or_app; auto. Qed.

Lemma make_resident_spec : forall devs O d ctx p size r d', make_resident O d ctx p size devs = (r, d') ->
  exists l, since d d' l /\ memory d' = memory d /\ fds d' = fds d /\
  (forall c e, In (c, e) l -> exists dev, In dev devs /\ c = MakeResident ctx dev p size) /\
  (r = SUCCESS -> forall dev, In dev devs -> In (dev, p) (resident d') /\ In (MakeResident ctx dev p size, 0) l) /\
  (r <> SUCCESS -> ~ all_ok makes_resident l) /\
  (forall x, In x (resident d) -> In x (resident d')).
Proof.
  induction devs as [|x devs IH]; intros O d ctx p size r d' H; cbn [make_resident] in H.
  - injection H as <- <-. exists []. split; [reflexivity|]. split; [reflexivity|]. split; [reflexivity|]. split; [intros c e []|].
    split; [intros _ dev []|]. split; [intros X; contradiction X; reflexivity|]. auto.
  - destruct (drv O d (MakeResident ctx x p size)) as [[c v] d1] eqn:D. destruct (drv_spec _ _ _ _ _ _ D) as (M & B & F & R & _).
    cbn [mem_after fds_after res_after block_from] in B, F, R.
    assert (B' : memory d1 = memory d) by (destruct (c =? 0); exact B). assert (F' : fds d1 = fds d) by (destruct (c =? 0); exact F).
    destruct (c =? 0) eqn:E.
    + destruct (IH _ _ _ _ _ _ _ H) as (l & T & B2 & F2 & K & S & N & RR). exists (l ++ [(MakeResident ctx x p size, c)]).
      apply Z.eqb_eq in E. subst c.
      split; [exact (since_app _ _ _ _ _ (since_cons _ _ _ _ _ _ D) T)|]. split; [congruence|]. split; [congruence|].
      split; [intros c e I; apply in_app_or in I as [I | [I|[]]]; [destruct (K c e I) as (dev & ? & ?); exists dev; split; [right; assumption|assumption]
               | injection I as <- <-; exists x; split; [left; reflexivity|reflexivity]]|].
      split; [|split].
      * intros X dev [<- | I]; [split; [apply RR; rewrite R; left; reflexivity | apply in_or_app; right; left; reflexivity]|].
        destruct (S X dev I) as (P & Q). split; [exact P | apply in_or_app; left; exact Q].
      * intros X A. apply ok_app in A as [A _]. exact (N X A).
      * intros y Iy. apply RR. rewrite R. right. exact Iy.
    + injection H as <- <-. exists [(MakeResident ctx x p size, c)]. split; [exact M|]. split; [exact B'|]. split; [exact F'|].
      split; [intros c0 e [I|[]]; injection I as <- <-; exists x; split; [left; reflexivity|reflexivity]|].
      split; [intros X; apply ze2umf_ok in X; lia|]. split; [|rewrite R; auto].
      intros _ A. specialize (A _ _ (or_introl eq_refl) eq_refl). lia.
Qed.

Lemma drop_perm : forall l b ctx p, In b l -> NoDup (map b_ptr l) -> b_ptr b = p -> b_ctx b = ctx -> Permutation l (b :: drop_block ctx p l).
Proof.
  induction l as [|x l IH]; intros b ctx p I ND E K; [destruct I|].
  cbn [map] in ND. inversion ND as [|? ? N1 N2]; subst. cbn [drop_block]. destruct I as [-> | I].
  - rewrite !Z.eqb_refl. reflexivity.
  - destruct (b_ptr x =? b_ptr b) eqn:X.
    + exfalso. apply N1. apply Z.eqb_eq in X. rewrite X. apply in_map. exact I.
    + cbn [andb]. etransitivity; [constructor; apply (IH b (b_ctx b) (b_ptr b) I N2 eq_refl eq_refl)|]. apply perm_swap.
Qed.
Lemma live_at_false : forall p l, live_at p l = false -> ~ In p (map b_ptr l).
Proof.
  intros p l H I. apply in_map_iff in I as (b & E & Hb). unfold live_at in H.
  assert (X : existsb (fun b => b_ptr b =? p) l = true) by (apply existsb_exists; exists b; split; [exact Hb|lia]). congruence.
Qed.
Lemma tied_memory : forall d d' H L, memory d' = memory d -> tied d H L -> tied d' H L.
Proof. intros d d' H L E T. unfold tied in *. rewrite E. exact T. Qed.
Lemma wanted_spec : forall pr s a v, allocates (wanted pr s a) = true /\ mem_after (wanted pr s a) v = cons (block_of (Holding pr v s)) /\
  (forall l, fds_after (wanted pr s a) v l = l) /\ (forall l, res_after (wanted pr s a) l = l).
Proof. intros pr s a v. unfold wanted, block_of. cbn [h_by h_ptr h_size]. destruct (kind_of pr); repeat split. Qed.

Lemma ze_alloc_eq : forall O d pr s a, usable pr -> ze_alloc O d pr s a =
  let '(c, p, d1) := drv O d (wanted pr s a) in
  if negb (c =? 0) then Some (ze2umf c, 0, d1)
  else let (r, d2) := make_resident O d1 (context pr) p s (devices pr) in Some (r, p, d2).
Proof.
  intros O d pr s a U. unfold ze_alloc, wanted, kind_of, use_relaxed. destruct U as [U | [[U | U] [D M]]]; rewrite U;
    cbn [Z.eqb MT_HOST MT_DEVICE MT_SHARED Pos.eqb]; try reflexivity;
    (replace (device pr =? 0) with false by lia); (replace (max_alloc pr <=? 0) with false by lia); reflexivity.
Qed.
(* one allocation *)
Lemma alloc_spec : forall O d pr s a, usable pr -> exists r p d' l, ze_alloc O d pr s a = Some (r, p, d') /\ since d d' l /\ fds d' = fds d /\
  (forall c e, In (c, e) l -> c = wanted pr s a \/ exists dev, In dev (devices pr) /\ c = MakeResident (context pr) dev p s) /\
  ((r = SUCCESS /\ memory d' = block_of (Holding pr p s) :: memory d /\ p <> 0 /\ live_at p (memory d) = false /\
      In (wanted pr s a, 0) l /\ (forall dev, In dev (devices pr) -> In (dev, p) (resident d') /\ In (MakeResident (context pr) dev p s, 0) l))
   \/ (r <> SUCCESS /\ memory d' = memory d /\ exists e, In (wanted pr s a, e) l /\ e <> 0)
   \/ (r <> SUCCESS /\ memory d' = block_of (Holding pr p s) :: memory d /\ p <> 0 /\ live_at p (memory d) = false /\ ~ all_ok makes_resident l)).
Proof.
  intros O d pr s a U. rewrite (ze_alloc_eq _ _ _ _ _ U).
  destruct (drv O d (wanted pr s a)) as [[c v] d1] eqn:D. destruct (drv_spec _ _ _ _ _ _ D) as (M & B & F & R & FR & _).
  destruct (wanted_spec pr s a v) as (AW & MA & FA & RA). rewrite MA in B. rewrite FA in F. rewrite RA in R.
  destruct (c =? 0) eqn:E; cbn [negb].
  - apply Z.eqb_eq in E. subst c. destruct (FR eq_refl AW) as (V0 & VL).
    destruct (make_resident O d1 (context pr) v s (devices pr)) as [r d2] eqn:MR.
    destruct (make_resident_spec _ _ _ _ _ _ _ _ MR) as (l & T & B2 & F2 & K & S & N & RR).
    exists r, v, d2, (l ++ [(wanted pr s a, 0)]). split; [reflexivity|]. split; [exact (since_app _ _ _ _ _ (since_cons _ _ _ _ _ _ D) T)|].
    split; [congruence|]. split.
    { intros c e I. apply in_app_or in I as [I | [I|[]]]; [right; exact (K c e I) | injection I as <- <-; left; reflexivity]. }
    destruct (success_dec r) as [X | X].
    + left. split; [exact X|]. split; [congruence|]. split; [exact V0|]. split; [exact VL|]. split; [apply in_or_app; right; left; reflexivity|].
      intros dev I. destruct (S X dev I) as (P & Q). split; [exact P|apply in_or_app; left; exact Q].
    + right. right. split; [exact X|]. split; [congruence|]. split; [exact V0|]. split; [exact VL|]. intros A. apply ok_app in A as [A _]. exact (N X A).
  - apply Z.eqb_neq in E. exists (ze2umf c), 0, d1, [(wanted pr s a, c)]. split; [reflexivity|]. split; [exact M|]. split; [destruct (c =? 0); exact F|].
    split; [intros c0 e [I|[]]; injection I as <- <-; left; reflexivity|].
    right. left. split; [intros X; apply ze2umf_ok in X; contradiction|]. replace (c =? 0) with false in B by lia. split; [exact B|].
    exists c. split; [left; reflexivity|exact E].
Qed.
(* one free *)
Lemma free_spec : forall O ext d pr p, free_ready ext pr -> p <> 0 -> exists r d' e, ze_free O ext d pr p = Some (r, d') /\ since d d' [(wanted_free pr p, e)] /\
  fds d' = fds d /\ (r = SUCCESS <-> e = 0) /\ (e <> 0 -> memory d' = memory d /\ resident d' = resident d) /\
  (e = 0 -> memory d' = drop_block (context pr) p (memory d) /\ forall dev, ~ In (dev, p) (resident d')).
Proof.
  intros O ext d pr p FR Hp. unfold ze_free. replace (p =? 0) with false by lia. unfold wanted_free.
  assert (X : exists c, (if policy pr =? 0 then Free (context pr) p else FreeExt (context pr) (policy pr) p) = c /\
    (if policy pr =? 0 then let '(e, _, d1) := drv O d (Free (context pr) p) in Some (ze2umf e, d1)
     else if ext then let '(e, _, d1) := drv O d (FreeExt (context pr) (policy pr) p) in Some (ze2umf e, d1) else None)
    = (let '(e, _, d1) := drv O d c in Some (ze2umf e, d1)) /\
    (forall v l, mem_after c v l = drop_block (context pr) p l) /\ (forall v l, fds_after c v l = l) /\ (forall l, res_after c l = filter (fun x => negb (snd x =? p)) l)).
  { eexists. split; [reflexivity|]. destruct (policy pr =? 0) eqn:P; [repeat split|]. destruct FR as [FR | ->]; [lia|]. repeat split. }
  destruct X as (c & -> & EQ & MA & FA & RA). rewrite EQ. destruct (drv O d c) as [[e v] d1] eqn:D. destruct (drv_spec _ _ _ _ _ _ D) as (M & B & F & R & _).
  rewrite MA in B. rewrite FA in F. rewrite RA in R.
  exists (ze2umf e), d1, e. split; [reflexivity|]. split; [exact M|]. split; [destruct (e =? 0); exact F|]. split; [apply ze2umf_ok|]. split.
  - intros N. replace (e =? 0) with false in B, R by lia. auto.
  - intros ->. cbn [Z.eqb] in B, R. split; [exact B|]. intros dev I. rewrite R in I. apply filter_In in I as [_ I]. cbn [snd] in I. rewrite Z.eqb_refl in I. discriminate I.
Qed.
Lemma free_perm : forall d d' pr p s, NoDup (map b_ptr (memory d)) -> In (block_of (Holding pr p s)) (memory d) ->
  memory d' = drop_block (context pr) p (memory d) -> Permutation (memory d) (block_of (Holding pr p s) :: memory d').
Proof. intros d d' pr p s ND I E. rewrite E. apply drop_perm; auto. Qed.

Definition good_step (O : oracle) (ext put : bool) (pid : Z) (d : driver) (H : list holding) (L : list block) (o : request) : Prop :=
  exists r p d' l, serve O ext put pid d o = Some (r, p, d') /\ since d d' l /\ (exists H', holds H o r p H') /\
  (forall H', holds H o r p H' -> exists L', tied d' H' (L' ++ L) /\ (all_ok makes_resident l -> L' = [])) /\
  (all_ok closes_fd l -> fds d' = fds d).

Lemma step_alloc : forall O ext put pid d H L pr s a, usable pr -> tied d H L -> good_step O ext put pid d H L (RAlloc pr s a).
Proof.
  intros O ext put pid d H L pr s a U T. destruct (alloc_spec O d pr s a U) as (r & p & d' & l & E & S & F & _ & K).
  exists r, p, d', l. split; [exact E|]. split; [exact S|].
  destruct T as (P & ND & NZ).
  assert (TT : forall H' L', memory d' = block_of (Holding pr p s) :: memory d -> p <> 0 -> live_at p (memory d) = false ->
            Permutation (block_of (Holding pr p s) :: map block_of H ++ L) (map block_of H' ++ L') -> tied d' H' L').
  { intros H' L' M V0 VL Q. unfold tied. rewrite M. split; [etransitivity; [apply perm_skip, P | exact Q]|]. split.
    - cbn [map block_of b_ptr h_ptr]. constructor; [exact (live_at_false _ _ VL)|exact ND].
    - intros b [<- | Hb]; [exact V0 | exact (NZ b Hb)]. }
  destruct K as [(X & M & V0 & VL & _) | [(X & M & _) | (X & M & V0 & VL & A)]].
  - subst r. split.
    { exists (Holding pr p s :: H). apply ho_alloc; [exact V0|]. intros h Ih <-. apply (live_at_false _ _ VL). apply in_map_iff. exists (block_of h).
      split; [reflexivity|]. apply (Permutation_in _ (Permutation_sym P)), in_or_app. left. apply in_map, Ih. }
    split; [|intros _; exact F]. intros H' HH. inversion HH; subst; try contradiction; try congruence. exists []. split; [|reflexivity].
    apply TT; auto.
  - split; [exists H; constructor; exact X|]. split; [|intros _; exact F]. intros H' HH. inversion HH; subst; try contradiction; try congruence.
    exists []. split; [|reflexivity]. unfold tied. rewrite M. auto.
  - split; [exists H; constructor; exact X|]. split; [|intros _; exact F]. intros H' HH. inversion HH; subst; try contradiction; try congruence.
    exists [block_of (Holding pr p s)]. split; [|intros Y; contradiction]. apply TT; auto. cbn [app]. apply Permutation_middle.
Qed.
Lemma step_free : forall O ext put pid d H L pr p, free_ready ext pr -> (p = 0 \/ exists s, In (Holding pr p s) H) -> tied d H L ->
  good_step O ext put pid d H L (RFree pr p).
Proof.
  intros O ext put pid d H L pr p FRY Hp T. unfold good_step. cbn [serve].
  assert (NZH : forall h, In h H -> h_ptr h <> 0).
  { intros h Ih. destruct T as (P & _ & NZ). apply (NZ (block_of h)). apply (Permutation_in _ (Permutation_sym P)), in_or_app. left. apply in_map, Ih. }
  destruct (Z.eq_dec p 0) as [-> | P0].
  { unfold ze_free. cbn [Z.eqb]. exists SUCCESS, 0, d, []. split; [reflexivity|]. split; [reflexivity|]. split; [exists H; apply ho_null|].
    split; [|reflexivity]. intros H' HH. exists []. split; [|reflexivity].
    inversion HH as [| |? ? s ? H1 H2 E0| | |]; subst; try exact T; try contradiction.
    exfalso. apply (NZH (Holding pr 0 s)); [apply in_or_app; right; left; reflexivity|reflexivity]. }
  destruct Hp as [Hp | (s & Is)]; [contradiction|].
  destruct (free_spec O ext d pr p FRY P0) as (r & d' & e & E & S & F & RS & N & Y). rewrite E.
  exists r, 0, d', [(wanted_free pr p, e)]. split; [reflexivity|]. split; [exact S|]. split.
  { destruct (success_dec r) as [-> | X]; [|exists H; constructor; exact X]. apply in_split in Is as (H1 & H2 & Q). exists (H1 ++ H2). apply (ho_free H pr p s 0 H1 H2 Q). }
  split; [|intros _; exact F]. intros H' HH. exists []. split; [|reflexivity].
  inversion HH as [| |? ? s' ? H1 H2 E0| |? ? ? ? NS|]; subst; try contradiction.
  - destruct (Y (proj1 RS eq_refl)) as (M & _). destruct T as (P & ND & NZ).
    assert (IB : In (block_of (Holding pr p s')) (memory d)).
    { apply (Permutation_in _ (Permutation_sym P)), in_or_app. left. apply in_map, in_or_app. right. left. reflexivity. }
    pose proof (free_perm d d' pr p s' ND IB M) as S2.
    assert (P2 : Permutation (block_of (Holding pr p s') :: memory d') (block_of (Holding pr p s') :: map block_of (H1 ++ H2) ++ L)).
    { etransitivity; [symmetry; exact S2|]. etransitivity; [exact P|]. rewrite !map_app. cbn [map]. rewrite <- !app_assoc. cbn [app]. symmetry. apply Permutation_middle. }
    apply Permutation_cons_inv in P2. unfold tied. cbn [app]. split; [exact P2|]. split.
    + apply (Permutation_NoDup (Permutation_map b_ptr S2)) in ND. cbn [map] in ND. inversion ND; assumption.
    + intros b Hb. apply NZ. apply (Permutation_in _ (Permutation_sym S2)). right. exact Hb.
  - apply (tied_memory d); [|exact T]. apply N. intros X. apply NS, RS, X.
Qed.

Lemma drv_quiet : forall O d c code v d', drv O d c = (code, v, d') -> (forall v l, mem_after c v l = l) -> (forall v l, fds_after c v l = l) ->
  memory d' = memory d /\ fds d' = fds d.
Proof.
  intros O d c code v d' H A D. destruct (drv_spec _ _ _ _ _ _ H) as (_ & M & F & _). rewrite A in M. rewrite D in F. destruct (code =? 0); auto.
Qed.
(* opening a handle *)
Lemma open_spec : forall O d pid pr i r p d', ze_open_ipc O d pid pr i = (r, p, d') -> exists l, since d d' l /\ memory d' = memory d /\
  (all_ok closes_fd l -> fds d' = fds d) /\ (forall c e, In (c, e) l -> makes_resident c = false) /\
  (r = SUCCESS -> exists h, In (OpenIpc (context pr) (device pr) h, 0) l /\ (if i_pid i =? pid then h = i_handle i else O (length (made d)) = (0, h) /\ exists e, l = [(CloseFd h, e); (OpenIpc (context pr) (device pr) h, 0); (DupFd (i_pid i) (i_handle i), 0)])) /\
  (r <> SUCCESS -> exists c e, In (c, e) l /\ e <> 0).
Proof.
  intros O d pid pr i r p d' H. unfold ze_open_ipc in H. destruct (i_pid i =? pid) eqn:EP.
  - destruct (drv O d (OpenIpc (context pr) (device pr) (i_handle i))) as [[c v] d1] eqn:D. injection H as <- <- <-.
    destruct (drv_quiet _ _ _ _ _ _ D (fun _ _ => eq_refl) (fun _ _ => eq_refl)) as (M & F). exists [(OpenIpc (context pr) (device pr) (i_handle i), c)].
    split; [exact (since_cons _ _ _ _ _ _ D)|]. split; [exact M|]. split; [auto|]. split; [intros c0 e [I|[]]; injection I as <- <-; reflexivity|].
    split; [intros X; apply ze2umf_ok in X; subst c; eexists; split; [left; reflexivity|reflexivity]|].
    intros X. exists (OpenIpc (context pr) (device pr) (i_handle i)), c. split; [left; reflexivity|]. intros Y. apply X, ze2umf_ok, Y.
  - destruct (drv O d (DupFd (i_pid i) (i_handle i))) as [[c fd] d1] eqn:D. destruct (drv_spec _ _ _ _ _ _ D) as (M1 & B1 & F1 & _ & _ & POS & _).
    cbn [mem_after fds_after block_from] in B1, F1. assert (B1' : memory d1 = memory d) by (destruct (c =? 0); exact B1).
    destruct (c =? 0) eqn:E; cbn [negb] in H.
    + apply Z.eqb_eq in E. subst c. specialize (POS eq_refl _ _ eq_refl). replace (fd =? -1) with false in H by lia.
      destruct (drv O d1 (OpenIpc (context pr) (device pr) fd)) as [[c2 v2] d2] eqn:D2.
      destruct (drv_quiet _ _ _ _ _ _ D2 (fun _ _ => eq_refl) (fun _ _ => eq_refl)) as (M2 & F2).
      destruct (drv O d2 (CloseFd fd)) as [[c3 v3] d3] eqn:D3. destruct (drv_spec _ _ _ _ _ _ D3) as (_ & B3 & F3 & _).
      cbn [mem_after fds_after block_from] in B3, F3. injection H as <- <- <-.
      exists ([(CloseFd fd, c3)] ++ [(OpenIpc (context pr) (device pr) fd, c2)] ++ [(DupFd (i_pid i) (i_handle i), 0)]).
      split; [exact (since_app _ _ _ _ _ (since_app _ _ _ _ _ (since_cons _ _ _ _ _ _ D) (since_cons _ _ _ _ _ _ D2)) (since_cons _ _ _ _ _ _ D3))|].
      split; [transitivity (memory d2); [destruct (c3 =? 0); exact B3|congruence]|]. split; [|split; [|split]].
      * intros A. rewrite (A _ _ (or_introl eq_refl) eq_refl) in F3. cbn [Z.eqb] in F3. rewrite F3, F2, F1. cbn [drop_fd]. rewrite Z.eqb_refl. reflexivity.
      * intros c e [I|[I|[I|[]]]]; injection I as <- <-; reflexivity.
      * intros X. apply ze2umf_ok in X. subst c2. exists fd. split; [right; left; reflexivity|]. split; [|exists c3; reflexivity].
        unfold drv in D. destruct (O (length (made d))) as [c0 v0]. cbn [andb] in D. destruct (c0 =? 0) eqn:C0; cbn [andb] in D; [apply Z.eqb_eq in C0; subst c0|].
        -- destruct (v0 <? 0) eqn:V; [injection D; intros _ _ Y; discriminate Y|]. cbn [Z.eqb] in D. injection D; intros; subst; reflexivity.
        -- rewrite C0 in D. injection D; intros; subst; discriminate C0.
      * intros X. exists (OpenIpc (context pr) (device pr) fd), c2. split; [right; left; reflexivity|]. intros Y. apply X, ze2umf_ok, Y.
    + injection H as <- <- <-. exists [(DupFd (i_pid i) (i_handle i), c)]. split; [exact M1|]. split; [exact B1'|]. split; [intros _; exact F1|].
      split; [intros c0 e [I|[]]; injection I as <- <-; reflexivity|]. split; [intros X; apply ze2umf_ok in X; lia|].
      intros _. exists (DupFd (i_pid i) (i_handle i)), c. split; [left; reflexivity|lia].
Qed.
Lemma step_other : forall O ext put pid d H L o, match o with RAlloc _ _ _ | RFree _ _ => False | _ => True end -> tied d H L ->
  good_step O ext put pid d H L o.
Proof.
  intros O ext put pid d H L o Ho T.
  assert (HO : forall r q, holds H o r q H) by (intros; apply ho_other; exact Ho).
  assert (HU : forall r q H', holds H o r q H' -> H' = H) by (intros r q H' HH; inversion HH; subst; try reflexivity; destruct Ho).
  assert (FIN : forall r p d' l, serve O ext put pid d o = Some (r, p, d') -> since d d' l -> memory d' = memory d ->
    (all_ok closes_fd l -> fds d' = fds d) -> good_step O ext put pid d H L o).
  { intros r p d' l E S M X. exists r, p, d', l. split; [exact E|]. split; [exact S|]. split; [exists H; apply HO|]. split; [|exact X].
    intros H' HH. rewrite (HU _ _ _ HH). exists []. split; [exact (tied_memory _ _ _ _ M T)|reflexivity]. }
  assert (ONE : forall c code v d', drv O d c = (code, v, d') -> (forall v l, mem_after c v l = l) -> (forall v l, fds_after c v l = l) ->
    forall r p, serve O ext put pid d o = Some (r, p, d') -> good_step O ext put pid d H L o).
  { intros c code v d' D A B r p E. destruct (drv_quiet _ _ _ _ _ _ D A B) as (M & F). apply (FIN _ _ _ _ E (since_cons _ _ _ _ _ _ D) M). auto. }
  destruct o as [pr s a|pr p|pr p|pr p|pr i|pr i|pr p]; try (destruct Ho; fail); cbn [serve] in *.
  - unfold ze_page_size in *. destruct (p =? 0); [apply (FIN _ _ _ [] eq_refl); auto; reflexivity|].
    destruct (drv O d (AllocProps (context pr) p)) as [[c v] d1] eqn:D. destruct (c =? 0); exact (ONE _ _ _ _ D (fun _ _ => eq_refl) (fun _ _ => eq_refl) _ _ eq_refl).
  - unfold ze_get_ipc in *. destruct (drv O d (GetIpc (context pr) p)) as [[c v] d1] eqn:D. destruct (c =? 0); exact (ONE _ _ _ _ D (fun _ _ => eq_refl) (fun _ _ => eq_refl) _ _ eq_refl).
  - unfold ze_put_ipc in *. destruct put; cbn [negb] in *; [|apply (FIN _ _ _ [] eq_refl); auto; reflexivity].
    destruct (drv O d (PutIpc (context pr) (i_handle i))) as [[c v] d1] eqn:D. exact (ONE _ _ _ _ D (fun _ _ => eq_refl) (fun _ _ => eq_refl) _ _ eq_refl).
  - destruct (ze_open_ipc O d pid pr i) as [[r p] d1] eqn:E. destruct (open_spec _ _ _ _ _ _ _ _ E) as (l & S & M & F & _). exact (FIN _ _ _ l eq_refl S M F).
  - unfold ze_close_ipc in *. destruct (drv O d (CloseIpc (context pr) p)) as [[c v] d1] eqn:D. exact (ONE _ _ _ _ D (fun _ _ => eq_refl) (fun _ _ => eq_refl) _ _ eq_refl).
Qed.
Lemma step_ok : forall O ext put pid d H L o, proper ext H o -> tied d H L -> good_step O ext put pid d H L o.
Proof.
  intros O ext put pid d H L o P T. destruct o as [pr s a|pr p|pr p|pr p|pr i|pr i|pr p]; cbn [proper] in P;
    [apply step_alloc; assumption | apply step_free; try apply P; assumption | apply step_other; [exact I | assumption]..].
Qed.
Lemma history_ok : forall O ext put pid d H os d' H', history O ext put pid d H os d' H' -> forall L, tied d H L ->
  exists L' l, since d d' l /\ tied d' H' (L' ++ L) /\ (all_ok makes_resident l -> L' = []) /\ (all_ok closes_fd l -> fds d' = fds d).
Proof.
  intros O ext put pid d H os d' H' HY. induction HY as [d H|d H o r p d1 H1 os d2 H2 P E HO HY IH]; intros L T.
  - exists [], []. split; [reflexivity|]. split; [exact T|]. split; reflexivity.
  - destruct (step_ok O ext put pid d H L o P T) as (r' & p' & d1' & l & E' & S & _ & K & F). rewrite E in E'. injection E' as <- <- <-.
    destruct (K _ HO) as (L1 & T1 & Q1). destruct (IH _ T1) as (L2 & l2 & S2 & T2 & Q2 & F2).
    exists (L2 ++ L1), (l2 ++ l). split; [exact (since_app _ _ _ _ _ S S2)|]. split; [rewrite <- app_assoc; exact T2|]. split.
    + intros X. apply ok_app in X as [X1 X2]. rewrite (Q1 X2), (Q2 X1). reflexivity.
    + intros X. apply ok_app in X as [X1 X2]. rewrite (F2 X1). exact (F X2).
Qed.

(* ---- creation ---- *)
Lemma usable_or_stuck : forall O d pr s a r p d', ze_alloc O d pr s a = Some (r, p, d') -> r = SUCCESS -> usable pr.
Proof.
  intros O d pr s a r p d' H ->. unfold ze_alloc in H. unfold usable. destruct (mtype pr =? MT_HOST) eqn:A; [left; lia|].
  destruct (mtype pr =? MT_DEVICE) eqn:B; [|destruct (mtype pr =? MT_SHARED) eqn:C; [|discriminate H]];
    unfold use_relaxed in H; destruct (device pr =? 0) eqn:D; try discriminate H; destruct (max_alloc pr <=? 0) eqn:E; try discriminate H; right; lia.
Qed.
Lemma query_spec : forall O ext d pr pg d', query_min_page_size O ext d pr = Some (SUCCESS, pg, d') ->
  usable pr /\ free_ready ext pr /\ exists l p, since d d' l /\ fds d' = fds d /\ p <> 0 /\
  In (wanted pr 1 0, 0) l /\ In (AllocProps (context pr) p, 0) l /\ (exists n, O n = (0, pg)) /\
  (all_ok frees l -> memory d' = memory d).
Proof.
  intros O ext d pr pg d' H. unfold query_min_page_size in H. destruct (ze_alloc O d pr 1 0) as [[[r p] d1]|] eqn:A; [|discriminate H].
  destruct (is_success r) eqn:R; cbn [negb] in H; [|injection H as -> _ _; discriminate R]. apply is_success_spec in R.
  pose proof (usable_or_stuck _ _ _ _ _ _ _ _ A R) as U.
  destruct (alloc_spec O d pr 1 0 U) as (r' & p' & d1' & l & A' & S1 & F1 & _ & K). rewrite A in A'. injection A' as <- <- <-.
  destruct K as [(_ & M1 & P0 & PL & IW & _) | [(X & _) | (X & _)]]; [|contradiction|contradiction].
  destruct (drv O d1 (AllocProps (context pr) p)) as [[c v] d2] eqn:D.
  destruct (drv_quiet _ _ _ _ _ _ D (fun _ _ => eq_refl) (fun _ _ => eq_refl)) as (M2 & F2).
  destruct (ze_free O ext d2 pr p) as [[rf d3]|] eqn:FR; [|discriminate H].
  assert (FRY : free_ready ext pr).
  { unfold ze_free in FR. replace (p =? 0) with false in FR by lia. unfold free_ready. destruct (policy pr =? 0) eqn:Q; [left; lia|].
    destruct ext; [right; reflexivity|discriminate FR]. }
  destruct (free_spec O ext d2 pr p FRY P0) as (rf' & d3' & e & FR' & S3 & F3 & _ & _ & Y). rewrite FR in FR'. injection FR' as <- <-.
  injection H as C <- <-. apply ze2umf_ok in C. subst c. cbn [Z.eqb].
  split; [exact U|]. split; [exact FRY|]. exists ([(wanted_free pr p, e)] ++ [(AllocProps (context pr) p, 0)] ++ l), p.
  split; [exact (since_app _ _ _ _ _ (since_app _ _ _ _ _ S1 (since_cons _ _ _ _ _ _ D)) S3)|]. split; [congruence|]. split; [exact P0|].
  split; [right; right; exact IW|]. split; [right; left; reflexivity|]. split.
  - unfold drv in D. destruct (O (length (made d1))) as [c0 v0] eqn:OO. exists (length (made d1)). rewrite OO. cbn [andb] in D.
    destruct (c0 =? 0) eqn:C0; [apply Z.eqb_eq in C0; subst c0; injection D; intros; subst; reflexivity | injection D; intros; subst; discriminate C0].
  - intros X. assert (E0 : e = 0) by (apply (X (wanted_free pr p) e); [left; reflexivity|unfold wanted_free; destruct (policy pr =? 0); reflexivity]).
    destruct (Y E0) as (M3 & _). rewrite M3, M2, M1. cbn [drop_block block_of b_ptr b_ctx h_ptr h_by]. rewrite !Z.eqb_refl. reflexivity.
Qed.

Lemma create_spec : forall O d heap room1 room2 loaded ext ps r q heap' d', initialize O d heap room1 room2 loaded ext ps = Some (r, q, heap', d') ->
  exists l, since d d' l /\ fds d' = fds d /\ (all_ok frees l -> memory d' = memory d) /\
  match q with
  | None => r <> SUCCESS /\ heap' = heap /\ memory d' = memory d /\ resident d' = resident d
  | Some q => r = SUCCESS /\ exists p, ps = Some p /\ valid p /\ loaded = true /\ usable q /\ free_ready ext q /\
      context q = p_context p /\ device q = p_device p /\ mtype q = p_type p /\ devices q = listed p /\
      policy q = policy_flags (p_policy p) /\ ordinal q = p_ordinal p /\ heap' = heap + (if p_count p =? 0 then 1 else 2) /\
      (exists n, O n = (0, min_page q)) /\ (p_device p = 0 \/ O (length (made d)) = (0, max_alloc q))
  end.
Proof.
  intros O d heap room1 room2 loaded ext ps r q heap' d' H. unfold initialize in H.
  assert (BAD : forall x, Some (x, @None provider, heap, d) = Some (r, q, heap', d') -> x <> SUCCESS ->
    exists l, since d d' l /\ fds d' = fds d /\ (all_ok frees l -> memory d' = memory d) /\
    match q with None => r <> SUCCESS /\ heap' = heap /\ memory d' = memory d /\ resident d' = resident d | Some _ => False end).
  { intros x E N. injection E as <- <- <- <-. exists []. split; [reflexivity|]. split; [reflexivity|]. split; [reflexivity|]. auto. }
  assert (FIN : (exists l, since d d' l /\ fds d' = fds d /\ (all_ok frees l -> memory d' = memory d) /\
    match q with None => r <> SUCCESS /\ heap' = heap /\ memory d' = memory d /\ resident d' = resident d | Some _ => False end) ->
    forall P : provider -> Prop, exists l, since d d' l /\ fds d' = fds d /\ (all_ok frees l -> memory d' = memory d) /\
    match q with None => r <> SUCCESS /\ heap' = heap /\ memory d' = memory d /\ resident d' = resident d | Some q => P q end).
  { intros (l & A & B & C & D) P. exists l. split; [exact A|]. split; [exact B|]. split; [exact C|]. destruct q; [destruct D|exact D]. }
  destruct ps as [ps|]; [|exact (FIN (BAD _ H ltac:(discriminate)) _)].
  destruct (p_context ps =? 0) eqn:E1; [exact (FIN (BAD _ H ltac:(discriminate)) _)|].
  destruct (Bool.eqb (p_type ps =? MT_HOST) (negb (p_device ps =? 0))) eqn:E2; [exact (FIN (BAD _ H ltac:(discriminate)) _)|].
  destruct (negb (p_count ps =? 0) && match p_resident ps with None => true | _ => false end) eqn:E3; [exact (FIN (BAD _ H ltac:(discriminate)) _)|].
  destruct loaded; cbn [negb] in H; [|exact (FIN (BAD _ H ltac:(discriminate)) _)].
  destruct room1; cbn [negb] in H; [|exact (FIN (BAD _ H ltac:(discriminate)) _)].
  assert (V : valid ps).
  { split; [lia|]. split.
    - destruct (p_type ps =? MT_HOST) eqn:A, (p_device ps =? 0) eqn:B; try discriminate E2; split; lia.
    - intros N. replace (p_count ps =? 0) with false in E3 by lia. destruct (p_resident ps); [discriminate|discriminate E3]. }
  destruct (if p_device ps =? 0 then (0, 0, d) else drv O d (DeviceProps (p_device ps))) as [[c mx] d1] eqn:D.
  assert (DD : exists l0, since d d1 l0 /\ memory d1 = memory d /\ fds d1 = fds d /\ resident d1 = resident d /\
    (forall x e, In (x, e) l0 -> frees x = false) /\ (c = 0 -> p_device ps = 0 \/ O (length (made d)) = (0, mx))).
  { destruct (p_device ps =? 0) eqn:B.
    - injection D as <- <- <-. exists []. split; [reflexivity|]. do 3 (split; [reflexivity|]). split; [intros x e []|]. intros _. left. lia.
    - destruct (drv_quiet _ _ _ _ _ _ D (fun _ _ => eq_refl) (fun _ _ => eq_refl)) as (M & F). destruct (drv_spec _ _ _ _ _ _ D) as (S & _ & _ & R & _).
      exists [(DeviceProps (p_device ps), c)]. split; [exact S|]. split; [exact M|]. split; [exact F|]. split; [destruct (c =? 0); exact R|].
      split; [intros x e [I|[]]; injection I as <- <-; reflexivity|]. intros ->. right. unfold drv in D. destruct (O (length (made d))) as [c0 v0].
      cbn [andb] in D. destruct (c0 =? 0) eqn:C0; [apply Z.eqb_eq in C0; subst c0; injection D; intros; subst; reflexivity | injection D; intros; subst; discriminate C0]. }
  destruct DD as (l0 & S0 & M0 & F0 & R0 & NF & MX).
  assert (BAD2 : forall x, Some (x, @None provider, heap + 1 - 1, d1) = Some (r, q, heap', d') -> x <> SUCCESS ->
    exists l, since d d' l /\ fds d' = fds d /\ (all_ok frees l -> memory d' = memory d) /\
    match q with None => r <> SUCCESS /\ heap' = heap /\ memory d' = memory d /\ resident d' = resident d | Some _ => False end).
  { intros x E N. injection E as <- <- <- <-. exists l0. split; [exact S0|]. split; [exact F0|]. split; [auto|]. split; [exact N|]. split; [lia|]. auto. }
  destruct (c =? 0) eqn:C; cbn [negb] in H; [|apply FIN, (BAD2 _ H); intros X; apply ze2umf_ok in X; lia].
  apply Z.eqb_eq in C. specialize (MX C).
  destruct (negb (p_count ps =? 0) && negb room2) eqn:E4; [exact (FIN (BAD2 _ H ltac:(discriminate)) _)|].
  match type of H with context [query_min_page_size O ext d1 ?x] => set (pr := x) in * end.
  destruct (query_min_page_size O ext d1 pr) as [[[r1 pg] d2]|] eqn:Q; [|discriminate H].
  destruct (is_success r1) eqn:R; [|discriminate H]. apply is_success_spec in R. subst r1.
  destruct (query_spec _ _ _ _ _ _ Q) as (U & FRY & l & p & S & F & _ & _ & _ & PG & MM).
  injection H as <- <- <- <-. exists (l ++ l0). split; [exact (since_app _ _ _ _ _ S0 S)|]. split; [congruence|].
  split; [intros X; apply ok_app in X as [X _]; rewrite (MM X); exact M0|]. split; [reflexivity|].
  exists ps. split; [reflexivity|]. split; [exact V|]. split; [reflexivity|]. split; [exact U|]. split; [exact FRY|].
  do 4 (split; [reflexivity|]). do 2 (split; [reflexivity|]). split; [destruct (p_count ps =? 0); lia|]. split; [exact PG|exact MX].
Qed.
(* creation over a driver that answers *)
Definition answering (O : oracle) (d : driver) : Prop := forall n, fst (O n) = 0 /\ 0 < snd (O n) /\ live_at (snd (O n)) (memory d) = false.
Lemma drv_answering : forall O d d0 c, answering O d0 -> (allocates c = true -> memory d = memory d0) -> exists v d', drv O d c = (0, v, d').
Proof.
  intros O d d0 c A M. unfold drv. destruct (A (length (made d))) as (A1 & A2 & A3). destruct (O (length (made d))) as [c0 v]. cbn [fst snd] in A1, A2, A3. subst c0.
  change (0 =? 0) with true. replace (v =? 0) with false by lia. replace (v <? 0) with false by lia. rewrite !andb_false_r.
  assert (X : match c with AllocHost _ _ _ | AllocDevice _ _ _ _ _ _ | AllocShared _ _ _ _ _ _ => true | _ => false end && true && (live_at v (memory d) || false) = false).
  { destruct c; try reflexivity; rewrite (M eq_refl), A3; reflexivity. }
  rewrite X. change (0 =? 0) with true. destruct c; do 2 eexists; reflexivity.
Qed.
Lemma make_resident_answering : forall devs O d d0 ctx p s, answering O d0 -> exists d', make_resident O d ctx p s devs = (SUCCESS, d').
Proof.
  induction devs as [|x devs IH]; intros O d d0 ctx p s A; cbn [make_resident]; [eauto|].
  destruct (drv_answering O d d0 (MakeResident ctx x p s) A) as (v & d1 & ->); [discriminate|]. exact (IH _ _ _ _ _ _ A).
Qed.
Lemma query_answering : forall O ext d d0 pr, usable pr -> free_ready ext pr -> answering O d0 -> memory d = memory d0 ->
  exists pg d', query_min_page_size O ext d pr = Some (SUCCESS, pg, d').
Proof.
  intros O ext d d0 pr U FRY A M. unfold query_min_page_size. rewrite (ze_alloc_eq _ _ _ _ _ U).
  destruct (drv_answering O d d0 (wanted pr 1 0) A (fun _ => M)) as (v & d1 & ->). cbn [Z.eqb negb].
  destruct (make_resident_answering (devices pr) O d1 d0 (context pr) v 1 A) as (d2 & ->). cbn [is_success result_eqb negb].
  destruct (drv_answering O d2 d0 (AllocProps (context pr) v) A) as (pg & d3 & ->); [discriminate|].
  destruct (ze_free O ext d3 pr v) as [[rf d4]|] eqn:F; [do 2 eexists; reflexivity|].
  exfalso. unfold ze_free in F. destruct (v =? 0); [discriminate F|]. destruct FRY as [X | ->].
  - rewrite X in F. cbn [Z.eqb] in F. destruct (drv O d3 (Free (context pr) v)) as [[? ?] ?]. discriminate F.
  - destruct (policy pr =? 0); [destruct (drv O d3 (Free (context pr) v)) as [[? ?] ?]|destruct (drv O d3 (FreeExt (context pr) (policy pr) v)) as [[? ?] ?]]; discriminate F.
Qed.
Lemma create_answering : forall O d heap ext p, valid p -> (p_type p = MT_HOST \/ p_type p = MT_DEVICE \/ p_type p = MT_SHARED) ->
  (policy_flags (p_policy p) = 0 \/ ext = true) -> answering O d ->
  exists q heap' d', initialize O d heap true true true ext (Some p) = Some (SUCCESS, Some q, heap', d').
Proof.
  intros O d heap ext p (V1 & V2 & V3) T X A. unfold initialize. replace (p_context p =? 0) with false by lia.
  assert (E2 : Bool.eqb (p_type p =? MT_HOST) (negb (p_device p =? 0)) = false).
  { destruct (p_type p =? MT_HOST) eqn:B, (p_device p =? 0) eqn:C; try reflexivity; exfalso; lia. }
  rewrite E2. assert (E3 : negb (p_count p =? 0) && match p_resident p with None => true | _ => false end = false).
  { destruct (p_count p =? 0) eqn:C; [reflexivity|]. destruct (p_resident p); [reflexivity|]. exfalso. apply V3; [lia|reflexivity]. }
  rewrite E3. cbn [negb]. rewrite andb_false_r.
  assert (DD : exists mx d1, (if p_device p =? 0 then (0, 0, d) else drv O d (DeviceProps (p_device p))) = (0, mx, d1) /\ memory d1 = memory d /\ (p_device p <> 0 -> 0 < mx)).
  { destruct (p_device p =? 0) eqn:B; [do 2 eexists; split; [reflexivity|]; split; [reflexivity|lia]|].
    destruct (drv_answering O d d (DeviceProps (p_device p)) A (fun _ => eq_refl)) as (v & d1 & D). exists v, d1. split; [exact D|].
    destruct (drv_quiet _ _ _ _ _ _ D (fun _ _ => eq_refl) (fun _ _ => eq_refl)) as (M & _). split; [exact M|]. intros _.
    destruct (A (length (made d))) as (A1 & A2 & _). unfold drv in D. destruct (O (length (made d))) as [c0 v0]. cbn [fst snd] in A1, A2. subst c0.
    cbn [andb Z.eqb] in D. injection D as <- _. exact A2. }
  destruct DD as (mx & d1 & -> & M & MX). cbn [Z.eqb negb].
  match goal with |- context [query_min_page_size O ext d1 ?x] => set (pr := x) end.
  destruct (query_answering O ext d1 d pr) as (pg & d2 & Q).
  - unfold usable, pr. cbn [mtype device max_alloc]. destruct T as [T | T]; [left; exact T|]. right. split; [exact T|].
    assert (N : p_device p <> 0). { intros Y. apply V2 in Y. unfold MT_HOST, MT_DEVICE, MT_SHARED in *. lia. } split; [exact N|exact (MX N)].
  - exact X.
  - exact A.
  - exact M.
  - rewrite Q. cbn [is_success result_eqb]. do 3 eexists. reflexivity.
Qed.
