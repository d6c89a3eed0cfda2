(* C45: tags of pools under concurrency. *)
From Verif Require Import Base Model_PoolTag Spec_PoolTag Proof_PoolTag.

(* Every execution of any number of threads looks as if each call had taken effect at
   one moment between its call and its return: umfPoolSetTag stores its tag and gives
   the one before, umfPoolGetTag gives the current one. *)
Theorem tag_linearizable : forall s tr, run s tr -> exists ms g ph, atomic ms g ph /\ visible ms = tr.
Proof. exact tag_linear. Qed.
Print Assumptions tag_linearizable.

(* No two threads are about to touch the tag at the same time. *)
Theorem tag_no_race : forall s tr t u, run s tr -> touches (p_pc s t) -> touches (p_pc s u) -> t = u.
Proof. exact tag_exclusive. Qed.
Print Assumptions tag_no_race.

(* A thread in a call can go on, or the holder of the lock can. *)
Theorem tag_progress : forall s tr t, run s tr -> p_pc s t <> Idle -> exists u s' e, advance s u = Some (s', e) /\ (u = t \/ p_lock s = Some u).
Proof. exact tag_moves. Qed.
Print Assumptions tag_progress.

(* Threads 1 and 2 set tags 10 and 20 at the same time; thread 2 wins; thread 3 then
   reads the tag of thread 1. *)
Inductive doing := DCall (t : Z) (c : call) | DGo (t : Z).
Fixpoint play (s : pstate) (tr : list event) (ds : list doing) : option (pstate * list event) :=
  match ds with
  | [] => Some (s, tr)
  | DCall t c :: ds => match p_pc s t with Idle => play (at_pc s t (Begin c)) (Call t c :: tr) ds | _ => None end
  | DGo t :: ds => match advance s t with Some (s', e) => play s' (match e with Some e => e :: tr | None => tr end) ds | None => None end
  end.
Lemma play_ok : forall ds s tr s' tr', run s tr -> play s tr ds = Some (s', tr') -> run s' tr'.
Proof.
  induction ds as [|[t c|t] ds IH]; cbn [play]; intros s tr s' tr' R P.
  - injection P as <- <-. exact R.
  - destruct (p_pc s t) eqn:PC; try discriminate. exact (IH _ _ _ _ (r_call s tr t c R PC) P).
  - destruct (advance s t) as [(s1 & e)|] eqn:A; [|discriminate]. exact (IH _ _ _ _ (r_step s tr t s1 e R A) P).
Qed.
Definition race := [DCall 1 (SetTag false 10 true); DCall 2 (SetTag false 20 true); DGo 2; DGo 2; DGo 2; DGo 2; DGo 1; DGo 1; DGo 2; DGo 1; DGo 1; DGo 1; DCall 3 (GetTag false true); DGo 3; DGo 3; DGo 3; DGo 3].
Definition outcome := match play p_start [] race with Some (_, tr) => tr | None => [] end.
Example race_outcome : outcome = [Return 3 SUCCESS (Some 10); Call 3 (GetTag false true); Return 1 SUCCESS (Some 20); Return 2 SUCCESS (Some 0); Call 2 (SetTag false 20 true); Call 1 (SetTag false 10 true)].
Proof. vm_compute. reflexivity. Qed.
Example race_run : exists s, run s outcome.
Proof.
  unfold outcome. destruct (play p_start [] race) as [(s & tr)|] eqn:P; [exists s; exact (play_ok _ _ _ _ _ r_start P)|].
  exists p_start. exact r_start.
Qed.
(* The lock excludes: while thread 2 holds it, thread 1 cannot go on. *)
Example blocked : match play p_start [] [DCall 1 (SetTag false 10 true); DCall 2 (SetTag false 20 true); DGo 2] with Some (s, _) => advance s 1 = None | None => False end.
Proof. vm_compute. reflexivity. Qed.
(* The register is not trivial: a set that gives back its own tag is no history of it. *)
Example wrong_answer : ~ exists ms g ph, atomic ms g ph /\ visible ms = [Return 1 SUCCESS (Some 10); Call 1 (SetTag false 10 true)].
Proof.
  assert (H : forall ms g ph, atomic ms g ph ->
    (visible ms = [] -> g = 0 /\ forall t, ph t = Free) /\
    (visible ms = [Call 1 (SetTag false 10 true)] -> (forall t, t <> 1 -> ph t = Free) /\ ((g = 0 /\ ph 1 = Asked (SetTag false 10 true)) \/ ph 1 = Answered SUCCESS (Some 0)))).
  { intros ms g ph A. induction A as [ph H|ms g ph ph' t c A (IH1 & IH2) F H|ms g ph ph' t c g' r v A (IH1 & IH2) F W H|ms g ph ph' t r v A (IH1 & IH2) F H]; cbn [visible flat_map app].
    - split; [auto|discriminate].
    - split; [discriminate|]. intros V. injection V as -> -> V. destruct (IH1 V) as (G & FR). split; [intros t NE; rewrite H; unfold upd; replace (t =? 1) with false by (symmetry; apply Z.eqb_neq; exact NE); apply FR|].
      left. split; [exact G|]. rewrite H. reflexivity.
    - split; intros V; [destruct (IH1 V) as (_ & FR); rewrite FR in F; discriminate|]. destruct (IH2 V) as (FR & [(G & Q)|Q]).
      + destruct (Z.eq_dec t 1) as [->|NE]; [|rewrite (FR t NE) in F; discriminate]. rewrite Q in F. injection F as <-. subst g. cbn in W. injection W as <- <- <-.
        split; [intros t NE; rewrite H; unfold upd; replace (t =? 1) with false by (symmetry; apply Z.eqb_neq; exact NE); exact (FR t NE)|]. right. rewrite H. reflexivity.
      + destruct (Z.eq_dec t 1) as [->|NE]; [rewrite Q in F; discriminate|rewrite (FR t NE) in F; discriminate].
    - split; discriminate. }
  intros (ms & g & ph & A & V). revert V. induction A as [ph H0|ms g ph ph' t c A IH F H0|ms g ph ph' t c g' r v A IH F W H0|ms g ph ph' t r v A IH F H0]; cbn [visible flat_map app]; intros V; try discriminate; [exact (IH V)|].
  injection V as -> -> -> V. destruct (H ms g ph A) as (_ & H2). destruct (H2 V) as (_ & [(_ & Q)|Q]); rewrite Q in F; discriminate.
Qed.
