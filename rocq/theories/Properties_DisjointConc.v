(* C85: a disjoint pool used by several threads (Model_DisjointConc.v,
   Spec_DisjointConc.v). *)
From Verif Require Import Base Model_DisjointConc Spec_DisjointConc Proof_DisjointConc Proof_DisjointConcStep.

(* As long as every allocation comes out of a bucket, any number of threads may
   allocate, free and ask for sizes at once: no freed slab is read, allocations
   never overlap, frees reach the right chunk, usable sizes suffice and are true, no thread
   that holds a lock is stuck, and with no call under way nothing is leaked.
   Missing: requests above max_poolable_size. *)
Theorem C85_pooled_partial : forall g s, sane g -> reach g pooled s -> safe g s.
Proof. intros g s G R. exact (inv_safe g false G s (inv_reach g false G s R)). Qed.
Print Assumptions C85_pooled_partial.

(* With direct allocations the same holds of the executions in which no slab_t is
   freed between another thread's lookup and its reading of what it found.
   Missing: the other executions, refuted below. *)
Theorem C85_settled_partial : forall g s, sane g -> reach g settled s -> safe g s.
Proof. intros g s G R. exact (inv_safe g true G s (inv_reach g true G s R)). Qed.
Print Assumptions C85_settled_partial.

(* Running a list of steps of the threads [ts], checking the caller's duties and,
   if [strict], that slabs settle. *)
Definition isp (o : option Z) (p : Z) : bool := match o with Some q => q =? p | None => false end.
Definition properb (g : cfg) (ts : list Z) (s : dst) (a : act) : bool :=
  match a with
  | AFree p => match d_own s p with Some _ => forallb (fun t => negb (isp (freeing (d_pc s t)) p) && negb (isp (asking (d_pc s t)) p)) ts | None => false end
  | AUsable p => match d_own s p with Some _ => forallb (fun t => negb (isp (freeing (d_pc s t)) p)) ts | None => false end
  | ATake _ _ off => off <? k_smin g
  | _ => true
  end.
Definition settledb (ts : list Z) (s : dst) (t : Z) (a : act) : bool :=
  match a, d_pc s t with
  | AGo, FCell x _ => forallb (fun t' => negb (isp (reads (d_pc s t')) x)) ts
  | _, _ => true
  end.
Fixpoint drun (g : cfg) (strict : bool) (ts : list Z) (s : dst) (es : list (Z * act)) : option dst :=
  match es with
  | [] => Some s
  | (t, a) :: es =>
      if existsb (Z.eqb t) ts && properb g ts s a && (negb strict || settledb ts s t a)
      then match dstep g s t a with Some s' => drun g strict ts s' es | None => None end else None
  end.

Lemma isp_no o p : isp o p = false -> o <> Some p.
Proof. intros H ->. cbn in H. rewrite Z.eqb_refl in H. discriminate. Qed.
Lemma dstep_others g s t a s' t' : dstep g s t a = Some s' -> t' <> t -> d_pc s' t' = d_pc s t'.
Proof.
  intros H N. unfold dstep in H.
  repeat match type of H with context [match ?x with _ => _ end] => destruct x end; try discriminate; injection H as <-; cbn; try reflexivity; apply put_ne; assumption.
Qed.
Definition idle_but (ts : list Z) (s : dst) : Prop := forall t, ~ In t ts -> d_pc s t = Idle.
Lemma properb_ok g ts s a : idle_but ts s -> properb g ts s a = true -> proper g s a.
Proof.
  intros ID H. destruct a; cbn in H |- *; try exact I.
  - destruct (d_own s p); [|discriminate]. rewrite forallb_forall in H. split; [discriminate|].
    split; intros t; (destruct (in_dec Z.eq_dec t ts) as [V|V]; [|rewrite (ID t V); discriminate]); specialize (H t V); apply andb_true_iff in H; destruct H as (H1 & H2).
    + apply isp_no, negb_true_iff, H1. + apply isp_no, negb_true_iff, H2.
  - destruct (d_own s p); [|discriminate]. rewrite forallb_forall in H. split; [discriminate|].
    intros t; (destruct (in_dec Z.eq_dec t ts) as [V|V]; [|rewrite (ID t V); discriminate]); specialize (H t V). apply isp_no, negb_true_iff, H.
  - apply Z.ltb_lt, H.
Qed.
Lemma settledb_ok ts s t a : idle_but ts s -> settledb ts s t a = true -> settled s t a.
Proof.
  intros ID H. unfold settled, settledb in *. destruct a; try exact I. destruct (d_pc s t); try exact I. rewrite forallb_forall in H.
  intros t' p. destruct (in_dec Z.eq_dec t' ts) as [V|V]; [|rewrite (ID t' V); split; discriminate]. specialize (H t' V). apply negb_true_iff, isp_no in H.
  split; intros E; rewrite E in H; apply H; reflexivity.
Qed.
Lemma drun_reach g (strict : bool) ts es : forall s s', idle_but ts s -> reach g (if strict then settled else any) s -> drun g strict ts s es = Some s' ->
  reach g (if strict then settled else any) s'.
Proof.
  induction es as [|[t a] es IH]; cbn [drun]; intros s s' ID R E; [injection E as <-; exact R|].
  match type of E with (if ?c then _ else _) = _ => destruct c eqn:Q; [|discriminate] end.
  apply andb_true_iff in Q. destruct Q as (Q & Q3). apply andb_true_iff in Q. destruct Q as (Q1 & Q2).
  destruct (dstep g s t a) as [s1|] eqn:D; [|discriminate]. apply (IH s1 s'); [| |exact E].
  - intros t' N. rewrite (dstep_others _ _ _ _ _ t' D); [exact (ID _ N)|]. intros ->. apply N. apply used_in. exact Q1.
  - apply (r_step g _ s t a s1 R); [exact (properb_ok g ts s a ID Q2)| |exact D].
    destruct strict; [|exact I]. exact (settledb_ok ts s t a ID Q3).
Qed.
Lemma idle_init ts : idle_but ts dinit.
Proof. intros t _. reflexivity. Qed.

Definition small : cfg := Cfg 64 (fun _ => 32).
Lemma small_sane : sane small.
Proof. split; cbn; lia. Qed.

(* The full statement. *)
Definition threads_safe : Prop := forall g s, sane g -> reach g any s -> safe g s.

(* Thread 1 frees the only chunk of the slab below an allocation that thread 2,
   which got it from the provider, is freeing: thread 2 has found the slab and
   reads it after it was freed (pool_disjoint.c:841-843, 132-145). *)
Definition make_slab (t x m : Z) : list (Z * act) := [(t, AMalloc 0 32); (t, AGo); (t, ANew x m); (t, AGo); (t, ATake x 0 0)].
Definition drop_slab (t p : Z) : list (Z * act) := [(t, AFree p); (t, AGo); (t, AGo); (t, AGo); (t, AGo); (t, ADrop); (t, AGo); (t, AGo); (t, AGo)].
Definition stale : list (Z * act) := make_slab 1 7 1000 ++ [(2, ADirect 2000 100); (2, AFree 2000); (2, AGo)] ++ drop_slab 1 1000 ++ [(2, AGo)].
Lemma stale_run : exists s, drun small false [1; 2] dinit stale = Some s /\ d_bad s = true.
Proof. eexists. split; [vm_compute; reflexivity|reflexivity]. Qed.
Theorem C85_stale_slab_refuted : exists g s, sane g /\ reach g any s /\ ~ defined s.
Proof.
  destruct stale_run as (s & E & B). exists small, s. split; [exact small_sane|]. split.
  - exact (drun_reach small false [1; 2] stale dinit s (idle_init _) (r_init _ _) E).
  - unfold defined. rewrite B. discriminate.
Qed.
Print Assumptions C85_stale_slab_refuted.

(* The memory of the slab_t may serve another slab by then: thread 2 asks for the
   size of its 100 bytes, and gets an answer about a slab made meanwhile. *)
Definition reused : list (Z * act) :=
  make_slab 1 7 1000 ++ [(2, ADirect 2000 100); (2, AUsable 2000); (2, AGo)] ++ drop_slab 1 1000 ++ make_slab 1 7 2100 ++ [(2, AGo)].
Lemma reused_run : exists s, drun small false [1; 2] dinit reused = Some s /\ d_bad s = false /\ d_pc s 2 = UDone 2000 4 /\ d_own s 2000 = Some (100, None).
Proof. eexists. split; [vm_compute; reflexivity|repeat split]. Qed.
Theorem C85_reused_slab_refuted : exists g s, sane g /\ reach g any s /\ defined s /\ ~ sized s.
Proof.
  destruct reused_run as (s & E & B & P & O). exists small, s. split; [exact small_sane|]. split; [|split; [exact B|]].
  - exact (drun_reach small false [1; 2] reused dinit s (idle_init _) (r_init _ _) E).
  - intros Z. destruct (Z 2 2000 4 P) as ((n & k & Q & L) & _). rewrite O in Q. injection Q as <- <-. lia.
Qed.
Print Assumptions C85_reused_slab_refuted.

Theorem C85_threads_refuted : ~ threads_safe.
Proof. intros H. destruct C85_stale_slab_refuted as (g & s & G & R & N). apply N. apply (H g s G R). Qed.
Print Assumptions C85_threads_refuted.

(* Two threads in one slab and a direct allocation, all at once and settled. *)
Definition together : list (Z * act) :=
  make_slab 1 7 1000 ++ [(2, AMalloc 0 20); (3, ADirect 3000 500); (1, AFree 1000); (2, AGo); (1, AGo); (2, ATake 7 1 4); (1, AGo); (1, AGo);
   (2, AUsable 1036); (3, AFree 3000); (3, AGo); (1, AGo); (2, AGo); (3, AGo); (2, AGo); (1, AKeep); (3, AGo)].
Example together_run : exists s, drun small true [1; 2; 3] dinit together = Some s /\ d_bad s = false /\ d_pc s 2 = UDone 1036 28
  /\ d_own s 1036 = Some (20, Some (7, 1)) /\ d_own s 1000 = None /\ d_own s 3000 = None /\ d_regs s = [(1000, 64, Some 7)] /\ d_mp s = [(1000, 7)].
Proof. eexists. split; [vm_compute; reflexivity|repeat split]. Qed.
(* the same steps are among those of the theorem *)
Example together_reach : exists s, reach small settled s /\ d_pc s 2 = UDone 1036 28.
Proof.
  destruct together_run as (s & E & _ & P & _). exists s. split; [|exact P].
  exact (drun_reach small true [1; 2; 3] together dinit s (idle_init _) (r_init _ _) E).
Qed.
