(* Proofs about what the predefined memory spaces contain. *)
From Verif Require Import Base Model_Memspace Spec_Memspace Proof_Memspace Model_Predef Spec_Predef Proof_Predef Proof_PredefLife.

Section Machine.
Variables (M : list hw) (attr : bool -> list Z -> hw -> result * Z).
Notation V := (map (fun n => Some (stands n)) M).
Lemma stands_inj : NoDup (map os_index M) -> forall a b, In a M -> In b M -> stands a = stands b -> a = b.
Proof. intros N a b Ia Ib E. injection E as E. exact (NoDup_map_injective _ _ _ _ _ _ N Ia Ib E). Qed.
Lemma by_os_at : NoDup (map os_index M) -> forall n, In n M -> by_os M (os_index n) = Some n.
Proof.
  intros N n I. unfold by_os. destruct (find (fun x => os_index x =? os_index n) M) as [x|] eqn:F.
  - apply find_some in F. destruct F as (J & E). apply Z.eqb_eq in E. f_equal. exact (NoDup_map_injective _ _ _ _ _ _ N J I E).
  - pose proof (find_none _ _ F n I) as W. cbn in W. rewrite Z.eqb_refl in W. discriminate.
Qed.
Lemma order_nodup : in_order M -> NoDup (map os_index M).
Proof.
  intros O. apply NoDup_nth_error. intros i j L E. rewrite map_length in L. rewrite !nth_error_map in E. destruct (nth_error M i) as [a|] eqn:A; [|apply nth_error_None in A; lia]. cbn in E. destruct (nth_error M j) as [b|] eqn:B; [|discriminate]. cbn in E. injection E as E. rewrite (O i a A), (O j b B) in E. lia.
Qed.
Lemma by_place_at : in_order M -> forall n, In n M -> by_place M (os_index n) = Some n.
Proof.
  intros O n I. apply In_nth_error in I. destruct I as (i & E). unfold by_place. rewrite (O i n E). destruct (Z.ltb_spec (Z.of_nat i) 0); [lia|]. rewrite Nat2Z.id. exact E.
Qed.
Lemma intersects_spec : forall a b, intersects (cpus a) (cpus b) = true <-> share a b.
Proof.
  intros a b. unfold intersects, share. rewrite existsb_exists. split.
  - intros (c & I & E). apply existsb_exists in E. destruct E as (d & J & E). apply Z.eqb_eq in E. subst d. eauto.
  - intros (c & I & J). exists c. split; [exact I|]. apply existsb_exists. exists c. split; [exact J|apply Z.eqb_refl].
Qed.
Lemma qv_says : in_order M -> forall lat a b, In a M -> In b M -> fst (qv M attr lat (Some (stands a)) (Some (stands b))) = SUCCESS -> says attr lat a b (snd (qv M attr lat (Some (stands a)) (Some (stands b)))).
Proof.
  intros O lat a b Ia Ib S. unfold qv, stands in *. rewrite (by_place_at O a Ia), (by_place_at O b Ib) in *. destruct (intersects (cpus a) (cpus b)) eqn:X.
  - apply intersects_spec in X. destruct (attr lat (cpus a) b) as (r & v) eqn:A. cbn [fst] in S. subst r. apply says_value; [exact X|exact A].
  - cbn [snd]. unfold worst. apply says_nothing. intros W. apply intersects_spec in W. congruence.
Qed.
Lemma answered_known : in_order M -> forall lat, known M attr lat -> answered M attr lat.
Proof.
  intros O lat K a b Ia Ib. apply in_map_iff in Ia, Ib. destruct Ia as (x & <- & Ix), Ib as (y & <- & Iy). unfold qv, stands. rewrite (by_place_at O x Ix), (by_place_at O y Iy). destruct (intersects (cpus x) (cpus y)) eqn:X; [|reflexivity]. apply intersects_spec in X. exact (K x y Ix Iy X).
Qed.
Lemma all_members : forall m s, cont M attr All (map (fun h => lookup h m) (nodes s)) -> members m s (map stands M).
Proof. intros m s E. unfold members. cbn [cont] in E. rewrite E, map_map. reflexivity. Qed.
Lemma cap_members : NoDup (map os_index M) -> forall m s, cont M attr Cap (map (fun h => lookup h m) (nodes s)) ->
  exists ns, Permutation M ns /\ members m s (map stands ns) /\ forall i j a b, (i < j)%nat -> nth_error ns i = Some a -> nth_error ns j = Some b -> memory b <= memory a.
Proof.
  intros N m s (P & O). apply Permutation_sym in P. destruct (Permutation_map_inv _ _ P) as (ns & E & PN). exists ns. split; [exact PN|]. split; [unfold members; rewrite E, map_map; reflexivity|].
  intros i j a b L A B. assert (CM : forall n, In n ns -> snd (cv M (Some (stands n))) = memory n) by (intros n I; unfold cv, stands; rewrite (by_os_at N n (Permutation_in _ (Permutation_sym PN) I)); reflexivity).
  rewrite <- (CM a (nth_error_In _ _ A)), <- (CM b (nth_error_In _ _ B)). apply (O i j); [exact L| |]; rewrite E, nth_error_map; [rewrite A|rewrite B]; reflexivity.
Qed.
Lemma picks_best : in_order M -> forall lat m s, picks M attr lat (map (fun h => lookup h m) (nodes s)) -> exists ts, members m s ts /\ best_nodes M attr lat ts.
Proof.
  intros O lat m s (AN & P1 & P2 & P3). set (v := map (fun h => lookup h m) (nodes s)) in *.
  assert (BS : exists bs, v = map (fun n => Some (stands n)) bs).
  { assert (IV : forall x, In x v -> In x V) by (intros x I; destruct (P2 x I) as (a & _ & W & _); exact W). clear - IV. induction v as [|x v IH]; [exists []; reflexivity|]. destruct IH as (bs & ->); [intros y I; apply IV; right; exact I|]. destruct (proj1 (in_map_iff _ _ _) (IV x (or_introl eq_refl))) as (n & <- & _). exists (n :: bs). reflexivity. }
  destruct BS as (bs & EV). exists (map stands bs). split; [unfold members; change (v = map Some (map stands bs)); rewrite map_map; exact EV|].
  assert (BF : forall a b, In a M -> In b M -> bestv M attr lat (Some (stands a)) (Some (stands b)) -> best_for M attr lat a b).
  { intros a b Ia Ib (_ & W). split; [exact Ib|]. assert (IN : forall n, In n M -> In (Some (stands n)) V) by (intros n I; apply (in_map (fun n => Some (stands n))); exact I). eexists. split; [apply (qv_says O); [exact Ia|exact Ib|apply AN; apply IN; assumption]|]. intros c Ic. eexists. split; [apply (qv_says O); [exact Ia|exact Ic|apply AN; apply IN; assumption]|]. specialize (W _ (IN c Ic)). unfold better. destruct lat; lia. }
  split; [|split].
  - assert (NV : NoDup V).
    { apply NoDup_map_on; [apply (NoDup_map_inv os_index); exact (order_nodup O)|]. intros x y Ix Iy E. injection E as E. apply (stands_inj (order_nodup O) x y Ix Iy). unfold stands. congruence. }
    specialize (P3 NV). rewrite EV, <- (map_map stands Some) in P3. apply NoDup_map_inv in P3. exact P3.
  - intros a Ia. destruct (P1 (Some (stands a))) as (x & Ix & B); [apply (in_map (fun n => Some (stands n))); exact Ia|]. pose proof (proj1 B) as IB. apply in_map_iff in IB. destruct IB as (b & <- & Ib). exists b. split; [apply BF; assumption|]. rewrite EV, <- (map_map stands Some) in Ix. apply in_map_iff in Ix. destruct Ix as (t & E & Ix). injection E as ->. exact Ix.
  - intros t It. destruct (P2 (Some t)) as (x & Ix & B); [rewrite EV, <- (map_map stands Some); apply in_map; exact It|]. pose proof (proj1 B) as IB. apply in_map_iff in IB. destruct IB as (b & E & Ib). apply in_map_iff in Ix. destruct Ix as (a & <- & Ia). exists a, b. split; [exact Ia|]. rewrite <- E in B. split; [apply BF; assumption|congruence].
Qed.
End Machine.
