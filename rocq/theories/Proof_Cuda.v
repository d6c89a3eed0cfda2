From Coq Require Import Permutation.
From Verif Require Import Base Model_Cuda Spec_Cuda.

Lemma cu2umf_ok : forall c, cu2umf c = SUCCESS <-> c = 0.
Proof.
  intros c. unfold cu2umf. destruct (c =? 0) eqn:A; [split; [lia|reflexivity]|].
  destruct (c =? 2); [split; [discriminate|lia]|]. destruct ((c =? 1) || (c =? 400)); [split; [discriminate|lia]|].
  destruct (c =? 4); split; try discriminate; lia.
Qed.
Lemma is_success_cu : forall c, is_success (cu2umf c) = (c =? 0).
Proof.
  intros c. unfold is_success, cu2umf. destruct (c =? 0); [reflexivity|]. destruct (c =? 2); [reflexivity|].
  destruct ((c =? 1) || (c =? 400)); [reflexivity|]. destruct (c =? 4); reflexivity.
Qed.

Definition drop_any (c : call) (l : list block) : list block :=
  match c with FreeHost p => drop_block p true l | FreeDevice p => drop_block p false l | _ => l end.
Definition is_alloc_of (c : call) (v ctx : Z) : option block :=
  match c with
  | AllocHost s _ => Some (Block v KHost ctx s) | AllocDevice s => Some (Block v KDevice ctx s)
  | AllocManaged s _ => Some (Block v KManaged ctx s) | _ => None end.

Lemma drv_spec : forall O d c code v d', drv O d c = (code, v, d') ->
  made d' = (current d, c, code) :: made d
  /\ current d' = (match c with SetCurrent x => if code =? 0 then x else current d | _ => current d end)
  /\ memory d' = (if code =? 0 then match is_alloc_of c v (current d) with Some b => b :: memory d | None => drop_any c (memory d) end else memory d)
  /\ (code = 0 -> allocates c = true -> v <> 0 /\ live_at v (memory d) = false)
  /\ (c = GetCurrent -> code = 0 -> v = current d)
  /\ (code <> 0 -> v = 0).
Proof.
  intros O d c code v d' H. unfold drv in H. destruct (O (length (made d))) as [code0 v0].
  set (cd := if _ && _ && _ then OOM else code0) in H.
  destruct (cd =? 0) eqn:Z0.
  - assert (E : allocates c = true -> v0 <> 0 /\ live_at v0 (memory d) = false).
    { intros A. assert (X : live_at v0 (memory d) || (v0 =? 0) = false).
      { destruct (live_at v0 (memory d) || (v0 =? 0)) eqn:Y; [|reflexivity]. exfalso. unfold cd in Z0.
        destruct c; try discriminate A; cbn [andb] in Z0; destruct (code0 =? 0) eqn:W; cbn [andb] in Z0; try (vm_compute in Z0; discriminate Z0); congruence. }
      apply orb_false_elim in X as [X Y]. split; [lia | exact X]. }
    destruct c; injection H as <- <- <-; cbn [made current memory drop_any is_alloc_of allocates Z.eqb];
      (split; [apply Z.eqb_eq in Z0; rewrite Z0; reflexivity|]);
      repeat split; intros; try discriminate; try reflexivity; try (apply E; assumption); try (exfalso; congruence); auto; try (apply E; reflexivity).
  - injection H as <- <- <-. cbn [made current memory]. rewrite ?Z0. repeat split; intros; try (apply Z.eqb_neq in Z0; exfalso; auto; fail); try reflexivity.
    destruct c; reflexivity.
Qed.

(* the calls set_context makes *)
Definition ctx_only (l : list (Z * call * Z)) : Prop := forall c x e, In (c, x, e) l -> about_context x = true.
Lemma set_context_spec : forall O d req keep r rest d', set_context O d req keep = (r, rest, d') ->
  memory d' = memory d /\ exists l, since d d' l /\ ctx_only l /\
  (r = SUCCESS -> current d' = req /\ rest = current d) /\
  (r <> SUCCESS -> current d' = current d /\ ~ context_calls_ok l).
Proof.
  intros O d req keep r rest d' H. unfold set_context in H.
  destruct (drv O d GetCurrent) as [[c cur] d1] eqn:D1. destruct (drv_spec _ _ _ _ _ _ D1) as (M1 & C1 & B1 & _ & G1 & _).
  assert (B1' : memory d1 = memory d) by (rewrite B1; cbn; destruct (c =? 0); reflexivity). clear B1.
  destruct (c =? 0) eqn:Ec; cbn [negb] in H.
  - apply Z.eqb_eq in Ec. specialize (G1 eq_refl Ec).
    destruct (cur =? req) eqn:Er.
    + injection H as <- <- <-. split; [exact B1'|]. exists [(current d, GetCurrent, c)].
      split; [exact M1|]. split; [intros ? ? ? [X|[]]; injection X as _ <- _; reflexivity|].
      split; [|intros []; reflexivity]. intros _. split; [rewrite C1, <- G1; lia | exact G1].
    + destruct (drv O d1 (SetCurrent req)) as [[c2 v2] d2] eqn:D2. destruct (drv_spec _ _ _ _ _ _ D2) as (M2 & C2 & B2 & _).
      assert (B2' : memory d2 = memory d1) by (rewrite B2; cbn; destruct (c2 =? 0); reflexivity).
      assert (S : since d d2 [(current d1, SetCurrent req, c2); (current d, GetCurrent, c)]) by (unfold since; rewrite M2, M1; reflexivity).
      assert (CO : ctx_only [(current d1, SetCurrent req, c2); (current d, GetCurrent, c)])
        by (intros ? ? ? [X|[X|[]]]; injection X as _ <- _; reflexivity).
      destruct (c2 =? 0) eqn:E2; injection H as <- <- <-; (split; [congruence|]); eexists; (split; [exact S|]); (split; [exact CO|]).
      * split; [|intros []; reflexivity]. intros _. split; [rewrite C2; reflexivity | exact G1].
      * split; [intros X; apply cu2umf_ok in X; apply Z.eqb_neq in E2; contradiction|].
        intros _. split; [rewrite C2, C1; reflexivity|]. intros K. apply Z.eqb_neq in E2. apply E2. exact (K _ _ _ (or_introl eq_refl) eq_refl).
  - injection H as <- <- <-. split; [exact B1'|]. exists [(current d, GetCurrent, c)]. split; [exact M1|].
    split; [intros ? ? ? [X|[]]; injection X as _ <- _; reflexivity|].
    apply Z.eqb_neq in Ec. split; [intros X; apply cu2umf_ok in X; contradiction|].
    intros _. split; [exact C1|]. intros K. apply Ec. exact (K _ _ _ (or_introl eq_refl) eq_refl).
Qed.

Lemma since_app : forall d1 d2 d3 l l', since d1 d2 l -> since d2 d3 l' -> since d1 d3 (l' ++ l).
Proof. intros d1 d2 d3 l l' A B. unfold since in *. rewrite B, A. apply app_assoc. Qed.
Lemma since_cons : forall O d c code v d', drv O d c = (code, v, d') -> since d d' [(current d, c, code)].
Proof. intros O d c code v d' H. exact (proj1 (drv_spec _ _ _ _ _ _ H)). Qed.
Lemma cc_app : forall l l', context_calls_ok (l ++ l') <-> context_calls_ok l /\ context_calls_ok l'.
Proof.
  intros l l'. unfold context_calls_ok. split.
  - intros H. split; intros c x e I; apply (H c x e), in_or_app; auto.
  - intros [A B] c x e I. apply in_app_or in I as [I | I]; [exact (A _ _ _ I) | exact (B _ _ _ I)].
Qed.
Lemma success_dec : forall r, {r = SUCCESS} + {r <> SUCCESS}.
Proof. intros r. decide equality. Qed.
Lemma is_success_spec : forall r, is_success r = true <-> r = SUCCESS.
Proof. intros []; split; try reflexivity; discriminate. Qed.

(* the pattern of alloc, free and open: enter the context, one call, go back *)
Definition scoped (O : oracle) (d : driver) (pr : provider) (c : call) : result * Z * Z * driver :=
  let '(r, restore, d1) := set_context O d (context pr) 0 in
  if negb (is_success r) then (r, -1, 0, d1)
  else let '(code, v, d2) := drv O d1 c in
       let '(_, _, d3) := set_context O d2 restore restore in (SUCCESS, code, v, d3).

Lemma scoped_spec : forall O d pr c r code v d', about_context c = false -> scoped O d pr c = (r, code, v, d') ->
  exists l, since d d' l /\
  (forall x y e, In (x, y, e) l -> about_context y = false -> x = context pr /\ y = c /\ e = code) /\
  (context_calls_ok l -> current d' = current d /\ r = SUCCESS) /\
  (r <> SUCCESS -> memory d' = memory d /\ (forall x y e, In (x, y, e) l -> about_context y = true)) /\
  (r = SUCCESS ->
     In (context pr, c, code) l /\
     memory d' = (if code =? 0 then match is_alloc_of c v (context pr) with Some b => b :: memory d | None => drop_any c (memory d) end else memory d) /\
     (code = 0 -> allocates c = true -> v <> 0 /\ live_at v (memory d) = false) /\ (code <> 0 -> v = 0)).
Proof.
  intros O d pr c r code v d' NC H. unfold scoped in H.
  destruct (set_context O d (context pr) 0) as [[r1 rest] d1] eqn:S1.
  destruct (set_context_spec _ _ _ _ _ _ _ S1) as (B1 & l1 & T1 & K1 & OK1 & NO1).
  destruct (is_success r1) eqn:E1; cbn [negb] in H.
  - apply is_success_spec in E1. destruct (OK1 E1) as (C1 & R1).
    destruct (drv O d1 c) as [[code' v'] d2] eqn:D. destruct (drv_spec _ _ _ _ _ _ D) as (M2 & C2 & B2 & F2 & _ & N2).
    destruct (set_context O d2 rest rest) as [[r3 rest3] d3] eqn:S3.
    destruct (set_context_spec _ _ _ _ _ _ _ S3) as (B3 & l3 & T3 & K3 & OK3 & NO3).
    injection H as <- <- <- <-.
    exists (l3 ++ [(current d1, c, code')] ++ l1).
    assert (TT : since d d3 (l3 ++ [(current d1, c, code')] ++ l1)) by (exact (since_app _ _ _ _ _ (since_app _ _ _ _ _ T1 (since_cons _ _ _ _ _ _ D)) T3)).
    split; [exact TT|]. split; [|split; [|split]].
    + intros x y e I N. apply in_app_or in I as [I | I]; [rewrite (K3 _ _ _ I) in N; discriminate N|].
      apply in_app_or in I as [[I|[]] | I]; [injection I as <- <- <-; rewrite C1; auto | rewrite (K1 _ _ _ I) in N; discriminate N].
    + intros CC. apply cc_app in CC as [CA CB]. apply cc_app in CB as [_ CB].
      split; [|reflexivity]. destruct (success_dec r3) as [X | X]; [|exfalso; exact (proj2 (NO3 X) CA)].
      rewrite (proj1 (OK3 X)). exact R1.
    + intros X. contradiction X. reflexivity.
    + intros _. split; [apply in_or_app; right; left; rewrite C1; reflexivity|].
      split; [rewrite B3, B2, C1, B1; reflexivity|]. rewrite B1 in F2. auto.
  - injection H as <- <- <- <-. exists l1. split; [exact T1|].
    assert (E1' : r1 <> SUCCESS) by (intros ->; discriminate E1). destruct (NO1 E1') as (C1 & CC).
    split; [intros x y e I N; rewrite (K1 _ _ _ I) in N; discriminate N|].
    split; [intros X; contradiction|]. split; [intros _; split; [exact B1|exact K1]|]. intros X. contradiction.
Qed.

(* the three functions as scoped calls *)
Lemma cu_free_scoped : forall O d pr p, usable pr -> p <> 0 ->
  cu_free O d pr p = let '(r, code, _, d') := scoped O d pr (match kind_of pr with KHost => FreeHost p | _ => FreeDevice p end) in
                     if is_success r then (cu2umf code, d') else (r, d').
Proof.
  intros O d pr p U Hp. unfold cu_free, scoped, kind_of. replace (p =? 0) with false by lia.
  destruct (set_context O d (context pr) 0) as [[r1 rest] d1]. destruct (is_success r1) eqn:E1; cbn [negb].
  - destruct U as [U | [U | U]]; rewrite U; cbn [Z.eqb MT_HOST MT_DEVICE MT_SHARED Pos.eqb orb];
      [destruct (drv O d1 (FreeHost p)) as [[? ?] d2] | destruct (drv O d1 (FreeDevice p)) as [[? ?] d2] | destruct (drv O d1 (FreeDevice p)) as [[? ?] d2]];
      destruct (set_context O d2 rest rest) as [[? ?] ?]; reflexivity.
  - rewrite E1. reflexivity.
Qed.
Lemma cu_alloc_scoped : forall O d pr s a, usable pr ->
  cu_alloc O d pr s a = if min_alignment pr <? a then Some (ERR_NOT_SUPPORTED, 0, d) else
    let '(r, code, p, d') := scoped O d pr (wanted pr s) in
    if is_success r then
      if negb (code =? 0) then Some (cu2umf code, 0, d')
      else if (0 <? a) && negb (p mod a =? 0) then Some (ERR_INVALID_ALIGNMENT, 0, snd (cu_free O d' pr p))
      else Some (SUCCESS, p, d')
    else Some (r, 0, d').
Proof.
  intros O d pr s a U. unfold cu_alloc, scoped, wanted, kind_of. destruct (min_alignment pr <? a); [reflexivity|].
  destruct (set_context O d (context pr) 0) as [[r1 rest] d1]. destruct (is_success r1) eqn:E1; cbn [negb]; [|rewrite E1; reflexivity].
  destruct U as [U | [U | U]]; rewrite U; cbn [Z.eqb MT_HOST MT_DEVICE MT_SHARED Pos.eqb];
    [destruct (drv O d1 (AllocHost s (alloc_flags pr))) as [[c ?] d2] | destruct (drv O d1 (AllocDevice s)) as [[c ?] d2] | destruct (drv O d1 (AllocManaged s (alloc_flags pr))) as [[c ?] d2]];
    destruct (set_context O d2 rest rest) as [[? ?] ?]; cbn [is_success result_eqb]; change (result_eqb (cu2umf c) SUCCESS) with (is_success (cu2umf c)); rewrite ?is_success_cu;
    destruct (c =? 0) eqn:E; cbn [negb]; try reflexivity; apply Z.eqb_eq in E; subst c; reflexivity.
Qed.
Lemma cu_open_scoped : forall O d pr h,
  cu_open_ipc O d pr h = let '(r, code, p, d') := scoped O d pr (IpcOpen h) in if is_success r then (cu2umf code, p, d') else (r, 0, d').
Proof.
  intros O d pr h. unfold cu_open_ipc, scoped. destruct (set_context O d (context pr) 0) as [[r1 rest] d1].
  destruct (is_success r1) eqn:E1; cbn [negb]; [|rewrite E1; reflexivity].
  destruct (drv O d1 (IpcOpen h)) as [[? ?] d2]. destruct (set_context O d2 rest rest) as [[? ?] ?]. reflexivity.
Qed.
