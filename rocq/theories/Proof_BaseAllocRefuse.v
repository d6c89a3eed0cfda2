(* What the internal allocators refuse, in every state. *)
From Verif Require Import Base Model_Utils Spec_Utils Proof_Utils Model_BaseAlloc Spec_BaseAlloc Proof_BaseAlloc Proof_BaseAllocStep.

Lemma round_refused : forall size, is_word size -> U64 - 8 < size -> ALIGN_UP_SAFE size MEMORY_ALIGNMENT = 0.
Proof. intros size W H. rewrite align_up_safe_word by (first [exact pow2_8|exact W]). unfold MEMORY_ALIGNMENT. rewrite (proj2 (Z.leb_le _ _)) by lia. reflexivity. Qed.
Lemma create_refused : forall dbg c size os lock, is_word size -> U64 - 8 < size -> umf_ba_create dbg c size os lock = Some ([], None).
Proof. intros dbg c size os lock W H. unfold umf_ba_create. rewrite (round_refused size W H). reflexivity. Qed.
Lemma linear_refused : forall dbg c l size os, is_word size -> U64 - 8 < size -> umf_ba_linear_alloc dbg c l size os = Some (0, [], l).
Proof. intros dbg c l size os W H. unfold umf_ba_linear_alloc. rewrite (round_refused size W H). destruct (size =? 0); reflexivity. Qed.
Lemma global_refused : forall dbg g size al os, is_word size -> U64 <= size + 8 \/ 8 < al /\ U64 <= size + 8 + al -> umf_ba_global_aligned_alloc dbg g size al os = Some (0, [], g).
Proof.
  intros dbg g size al os W H. unfold umf_ba_global_aligned_alloc, ALLOC_METADATA_SIZE. unfold is_word in W. destruct (Z.eqb_spec size 0); [reflexivity|]. destruct (Z.ltb_spec (U64 - 1 - 8) size); [reflexivity|]. cbv zeta.
  rewrite (proj2 (Z.ltb_lt 8 al)) by lia. rewrite (proj2 (Z.ltb_lt (U64 - 1 - al) (size + 8))) by lia. reflexivity.
Qed.
(* the OS has no memory *)
Lemma create_no_memory : forall dbg c size lock, exists ev, umf_ba_create dbg c size None lock = Some (ev, None) /\ held_after [] ev = [].
Proof. intros dbg c size lock. unfold umf_ba_create. destruct (_ =? 0); [eauto|]. cbv zeta. destruct (_ =? 0); eauto. Qed.
Lemma lcreate_no_memory : forall c size lock, exists ev, umf_ba_linear_create c size None lock = (ev, None) /\ held_after [] ev = [].
Proof. intros c size lock. unfold umf_ba_linear_create. cbv zeta. destruct (_ =? 0); eauto. Qed.
Lemma alloc_no_memory : forall dbg b os ptr ev b' n, umf_ba_alloc dbg b os = Some (ptr, ev, b') -> In (OsFail n) ev -> ptr = 0 /\ b' = b.
Proof.
  intros dbg b os ptr ev b' n H IN. unfold umf_ba_alloc in H. destruct (b_free b) as [|x r] eqn:F.
  - destruct os as [p|]; [|injection H as <- _ <-; auto]. destruct (utils_align_ptr_up_size_down _ _ _) as (d, lf). destruct (ba_divide_memory_into_chunks _ _ _ _) as [b2|]; [|discriminate].
    unfold ba_take in H. destruct (b_free b2); [injection H as _ <- _; destruct IN as [X|[]]; discriminate|]. destruct (dbg && _); [discriminate|]. injection H as _ <- _. destruct IN as [X|[]]; discriminate.
  - unfold ba_take in H. rewrite F in H. destruct (dbg && _); [discriminate|]. injection H as _ <- _. destruct IN.
Qed.
Lemma take_events : forall dbg l a ev ptr ev' l', linear_take dbg l a ev = Some (ptr, ev', l') -> ev' = ev.
Proof. intros dbg l a ev ptr ev' l' H. unfold linear_take in H. destruct (dbg && _); [discriminate|]. destruct (dbg && _); [discriminate|]. injection H as _ <- _. reflexivity. Qed.
Lemma lalloc_no_memory : forall dbg c l size os ptr ev l' n, umf_ba_linear_alloc dbg c l size os = Some (ptr, ev, l') -> In (OsFail n) ev -> ptr = 0 /\ l' = l.
Proof.
  intros dbg c l size os ptr ev l' n H IN. unfold umf_ba_linear_alloc in H. cbv zeta in H.
  destruct (size =? 0); [injection H as <- _ <-; auto|]. destruct (ALIGN_UP_SAFE size MEMORY_ALIGNMENT =? 0); [injection H as <- _ <-; auto|].
  destruct (l_left l <? ALIGN_UP_SAFE size MEMORY_ALIGNMENT); [|apply take_events in H; subst ev; destruct IN].
  match type of H with (if ?n =? 0 then _ else _) = _ => set (m := n) in H end. destruct (m =? 0); [injection H as <- _ <-; auto|].
  destruct (dbg && _); [discriminate|]. destruct os as [p|]; [|injection H as <- _ <-; auto].
  destruct (utils_align_ptr_up_size_down _ _ _) as (d, lf). apply take_events in H. subst ev. destruct IN as [X|[]]; discriminate.
Qed.
