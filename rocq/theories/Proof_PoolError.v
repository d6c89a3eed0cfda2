(* Proofs about the last allocation error of pools. *)
From Verif Require Import Base Model_PoolError Spec_PoolError.

Lemma res_eqb_true r : result_eqb r SUCCESS = true -> r = SUCCESS.
Proof. destruct r; cbn; congruence. Qed.
Lemma res_eqb_false r : result_eqb r SUCCESS = false -> r <> SUCCESS.
Proof. destruct r; cbn; congruence. Qed.

Lemma last_set k r e : last_error k (set_error k r e) = r.
Proof. destruct k; reflexivity. Qed.
Lemma last_set_other k k' r e : k <> k' -> last_error k (set_error k' r e) = last_error k e.
Proof. destruct k, k'; try reflexivity; congruence. Qed.
Lemma last_set_free k r e : last_error k (set_free r e) = last_error k e.
Proof. destruct k; reflexivity. Qed.

Lemma provider_error k x e e' : honest x -> from_provider k x e = (e', Ptr 0) -> last_error k e' = x_res x /\ x_res x <> SUCCESS.
Proof.
  intros H. unfold from_provider. destruct (result_eqb (x_res x) SUCCESS) eqn:E; intros C.
  - apply res_eqb_true in E. injection C as _ P. elim (H E P).
  - apply res_eqb_false in E. injection C as <-. rewrite last_set. auto.
Qed.
Lemma bucket_error x e e' : from_bucket x e = (e', Ptr 0) -> e_disjoint e' <> SUCCESS.
Proof. unfold from_bucket. destruct (Z.eqb_spec (x_ptr x) 0); intros C; [injection C as <-; cbn; discriminate|injection C as _ P; contradiction]. Qed.
Lemma jemalloc_error x e e' : from_jemalloc x e = (e', Ptr 0) -> e_jemalloc e' <> SUCCESS /\ e_jemalloc e' = ERR_OUT_OF_HOST_MEMORY.
Proof. unfold from_jemalloc. destruct (Z.eqb_spec (x_ptr x) 0); intros C; [injection C as <-; split; [discriminate|reflexivity]|injection C as _ P; contradiction]. Qed.
Lemma raw_allocs_keep rs : forall e, e_scalable e = ERR_OUT_OF_HOST_MEMORY -> e_scalable (raw_allocs rs e) = ERR_OUT_OF_HOST_MEMORY.
Proof. induction rs as [|r t IH]; intros e E; cbn [raw_allocs]; [exact E|]. apply IH. destruct (result_eqb r SUCCESS); [exact E|reflexivity]. Qed.
Lemma raw_allocs_error rs f : In f rs -> f <> SUCCESS -> forall e, e_scalable (raw_allocs rs e) = ERR_OUT_OF_HOST_MEMORY.
Proof.
  induction rs as [|r t IH]; intros I N e; [destruct I|]. cbn [raw_allocs]. destruct I as [->|I]; [|apply IH; assumption].
  apply raw_allocs_keep. destruct (result_eqb f SUCCESS) eqn:E; [elim N; apply res_eqb_true, E|reflexivity].
Qed.
Lemma tbb_error x e e' : from_tbb x e = (e', Ptr 0) ->
  e_scalable e' <> SUCCESS /\ ((exists f, In f (x_raw x) /\ f <> SUCCESS) -> e_scalable e' = ERR_OUT_OF_HOST_MEMORY).
Proof.
  unfold from_tbb. destruct (Z.eqb_spec (x_ptr x) 0); intros C; [|injection C as _ P; contradiction].
  destruct (result_eqb _ SUCCESS) eqn:E in C; injection C as <-.
  - split; [discriminate|]. intros (f & I & N). rewrite (raw_allocs_error _ f I N) in E. discriminate.
  - split; [apply res_eqb_false, E|]. intros (f & I & N). apply (raw_allocs_error _ f I N).
Qed.
Lemma direct_error x e e' : honest x -> (if x_direct x then from_provider Disjoint x e else from_bucket x e) = (e', Ptr 0) ->
  e_disjoint e' <> SUCCESS /\ (x_direct x = true -> e_disjoint e' = x_res x).
Proof.
  intros H. destruct (x_direct x); intros C.
  - apply (provider_error Disjoint) in C; [|exact H]. cbn in C. destruct C as (-> & N). auto.
  - apply bucket_error in C. split; [exact C|discriminate].
Qed.

Lemma call_explains k o x e e' out_ : asks o -> honest x -> pool_call k o x e = (e', out_) -> fails out_ -> explains k o x (last_error k e').
Proof.
  unfold fails, explains. intros A HO C F. subst out_. destruct k, o; cbn [asks] in A; try contradiction; cbn [pool_call last_error] in *.
  - unfold disjoint_allocate in C. destruct (Z.eqb_spec size 0); [contradiction|]. apply direct_error in C; auto.
  - injection C as <-. cbn. split; [discriminate|reflexivity].
  - injection C as <-. cbn. split; [discriminate|reflexivity].
  - unfold disjoint_allocate in C. destruct (Z.eqb_spec size 0); [contradiction|]. destruct (alignment <=? 1); apply direct_error in C; auto.
  - apply (provider_error Proxy) in C; [|exact HO]. cbn in C. destruct C as (-> & N). auto.
  - injection C as <-. cbn. split; [discriminate|reflexivity].
  - injection C as <-. cbn. split; [discriminate|reflexivity].
  - apply (provider_error Proxy) in C; [|exact HO]. cbn in C. destruct C as (-> & N). auto.
  - apply jemalloc_error in C. auto.
  - apply jemalloc_error in C. auto.
  - destruct (Z.eqb_spec size 0); [contradiction|]. cbn in C. apply jemalloc_error in C. auto.
  - apply jemalloc_error in C. auto.
  - apply tbb_error in C. auto.
  - apply tbb_error in C. auto.
  - apply tbb_error in C. auto.
  - apply tbb_error in C. auto.
Qed.

(* a call changes only its own pool manager's variable *)
Lemma raw_allocs_other k rs : k <> Scalable -> forall e, last_error k (raw_allocs rs e) = last_error k e.
Proof. intros N. induction rs as [|r t IH]; intros e; cbn [raw_allocs]; [reflexivity|]. rewrite IH. destruct (result_eqb r SUCCESS); [reflexivity|apply last_set_other, N]. Qed.
Lemma raw_frees_other k rs : forall e, last_error k (raw_frees rs e) = last_error k e.
Proof. induction rs as [|r t IH]; intros e; cbn [raw_frees]; [reflexivity|]. rewrite IH. destruct (result_eqb r SUCCESS); [reflexivity|apply last_set_free]. Qed.
Lemma call_other k k' o x e : k <> k' -> last_error k (fst (pool_call k' o x e)) = last_error k e.
Proof.
  intros N. destruct k'; destruct o; cbn [pool_call]; unfold disjoint_allocate, from_provider, from_bucket, from_jemalloc, from_tbb;
    repeat match goal with |- context [if ?b then _ else _] => destruct b end; cbn [fst];
    rewrite ?last_set_other, ?raw_frees_other, ?last_set_free, ?raw_allocs_other, ?last_set_other by assumption; reflexivity.
Qed.
Lemma put_same w t e : put w t e t = e.
Proof. unfold put. rewrite Z.eqb_refl. reflexivity. Qed.
Lemma put_other w t e u : u <> t -> put w t e u = w u.
Proof. unfold put. intros H. destruct (Z.eqb_spec u t); [contradiction|reflexivity]. Qed.

Lemma step_other kinds w c t p : c_thread c <> t \/ kinds (c_pool c) <> kinds p -> get_last kinds (fst (step kinds w c)) t p = get_last kinds w t p.
Proof.
  unfold get_last, step. intros H. destruct (pool_call _ _ _ _) as [e o] eqn:E. cbn [fst].
  destruct (Z.eq_dec t (c_thread c)) as [->|N]; [|rewrite put_other by exact N; reflexivity].
  rewrite put_same. destruct H as [H|H]; [congruence|]. replace e with (fst (pool_call (kinds (c_pool c)) (c_op c) (c_ans c) (w (c_thread c)))) by (rewrite E; reflexivity).
  apply call_other. congruence.
Qed.
Lemma run_other kinds t p cs : (forall c, In c cs -> c_thread c <> t \/ kinds (c_pool c) <> kinds p) -> forall w, get_last kinds (run kinds w cs) t p = get_last kinds w t p.
Proof.
  induction cs as [|c cs IH]; intros H w; [reflexivity|]. unfold run. cbn. fold (run kinds (fst (step kinds w c)) cs).
  rewrite IH; [apply step_other, H; left; reflexivity|intros d D; apply H; right; exact D].
Qed.

Lemma error_kept kinds before c after w out_ : asks (c_op c) -> honest (c_ans c) ->
  step kinds (run kinds world0 before) c = (w, out_) -> fails out_ ->
  (forall d, In d after -> c_thread d <> c_thread c \/ kinds (c_pool d) <> kinds (c_pool c)) ->
  explains (kinds (c_pool c)) (c_op c) (c_ans c) (get_last kinds (run kinds world0 (before ++ c :: after)) (c_thread c) (c_pool c)).
Proof.
  intros A H S F D. unfold run. rewrite fold_left_app. cbn [fold_left]. fold (run kinds world0 before).
  change (fold_left (fun w c => fst (step kinds w c)) after ?x) with (run kinds x after).
  rewrite run_other by exact D. rewrite S. cbn [fst]. unfold step in S. destruct (pool_call _ _ _ _) as [e o] eqn:E. injection S as <- <-.
  unfold get_last. rewrite put_same. eapply call_explains; eassumption.
Qed.
