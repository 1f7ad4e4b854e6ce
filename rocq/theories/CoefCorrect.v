(** The coefficients computed by the code are the intended balanced sums,
    except the entries read before they are written. *)
From Verif Require Export CoefProofs.
Open Scope R_scope.

Lemma Rprod_mult A (l : list A) f g : Rprod l (fun x => f x * g x) = Rprod l f * Rprod l g.
Proof. induction l as [|x t IH]; simpl; [lra|]. rewrite IH. ring. Qed.

Lemma Rprod_one A (l : list A) f : (forall x, In x l -> f x = 1) -> Rprod l f = 1.
Proof.
  induction l as [|x t IH]; simpl; intros H; [reflexivity|].
  rewrite H by auto. rewrite IH by auto. lra.
Qed.

Lemma Rprod_drop (l : list nat) i f : NoDup l -> In i l ->
  Rprod l f = f i * Rprod l (fun j => if (j =? i)%nat then 1 else f j).
Proof.
  induction l as [|x t IH]; simpl; intros Hnd Hin; [contradiction|].
  inversion Hnd as [|? ? Hx Ht]; subst. destruct Hin as [->|Hin].
  - rewrite Nat.eqb_refl, Rmult_1_l. f_equal. apply Rprod_ext. intros j Hj.
    destruct (Nat.eqb_spec j i) as [->|]; [contradiction|reflexivity].
  - rewrite IH by assumption. destruct (Nat.eqb_spec x i) as [->|]; [contradiction|]. ring.
Qed.

Lemma Rprod_pt1 (l : list nat) i f : NoDup l -> In i l -> (forall j, In j l -> j <> i -> f j = 1) -> Rprod l f = f i.
Proof.
  intros Hnd Hi H. rewrite (@Rprod_drop _ i) by assumption. rewrite Rprod_one; [lra|].
  intros j Hj. destruct (Nat.eqb_spec j i); auto.
Qed.

Lemma Rprod_pt2 (l : list nat) i j f : NoDup l -> In i l -> In j l -> i <> j ->
  (forall x, In x l -> x <> i -> x <> j -> f x = 1) -> Rprod l f = f i * f j.
Proof.
  intros Hnd Hi Hj Hne H. rewrite (@Rprod_drop _ i) by assumption.
  rewrite (@Rprod_pt1 _ j); auto.
  - destruct (Nat.eqb_spec j i); [congruence|reflexivity].
  - intros x Hx Hxj. destruct (Nat.eqb_spec x i); auto.
Qed.

Lemma Rprod_pt3 (l : list nat) i j k f : NoDup l -> In i l -> In j l -> In k l -> i <> j -> i <> k -> j <> k ->
  (forall x, In x l -> x <> i -> x <> j -> x <> k -> f x = 1) -> Rprod l f = f i * f j * f k.
Proof.
  intros Hnd Hi Hj Hk H1 H2 H3 H. rewrite (@Rprod_drop _ i) by assumption.
  rewrite (@Rprod_pt2 _ j k); auto.
  - destruct (Nat.eqb_spec j i); [congruence|]. destruct (Nat.eqb_spec k i); [congruence|]. ring.
  - intros x Hx Hxj Hxk. destruct (Nat.eqb_spec x i); auto.
Qed.

Section CORRECT.
Variable r : preact.
Hypothesis G : goodPR r.
Notation n := (na r).
Notation F := (prodCoefs r).
Notation nO := (nOverlap r).

(** Normalised balanced sum of an axis. *)
Definition E (i : nat) (w : Z -> Z -> Z -> Z -> R) : R := axsum r i w / width r i.

Lemma E_ext i w w' : (forall x y z t, w x y z t = w' x y z t) -> E i w = E i w'.
Proof. intros H. unfold E, axsum. f_equal. apply msum_ext. intros; apply H. Qed.

Lemma E_1 i w : (i < n)%nat -> (forall x y z t, w x y z t = 1) -> E i w = 1.
Proof.
  intros Hi H. unfold E. rewrite (g_w r G i Hi). unfold axsum.
  rewrite (msum_ext _ _ _ _ w (fun _ _ _ _ => 1)) by (intros; apply H).
  change (msum (cl1 r i) (cl2 r i) (q1 r i) (q2 r i) (fun _ _ _ _ => 1)) with (axsum r i (fun _ _ _ _ => 1)).
  rewrite <- (g_w r G i Hi). field. apply (g_nz r G i Hi).
Qed.

Lemma nO_prod : nO = Rprod (axes r) (width r).
Proof.
  unfold nOverlap. destruct (noProduct r) eqn:Hn; [|reflexivity].
  symmetry. apply Rprod_one. intros i _. unfold width. rewrite Hn. reflexivity.
Qed.

Lemma nO_nz : nO <> 0.
Proof.
  rewrite nO_prod. apply Rprod_neq_0. intros i Hi. apply (g_nz r G). apply axes_In. exact Hi.
Qed.

Lemma slotd_nz s k : slotd r s k <> 0.
Proof.
  unfold slotd. destruct k; [lra|]. destruct s as [|[|[|]]]; apply G.
Qed.

Lemma spec_E a b s k : specCoef r a b s k =
  nO * Rprod (axes r) (fun i => E i (fun x y p m =>
     wt a i (cl1 r i) x * wt b i (cl2 r i) y * slotw r s k i x y p m)) / slotd r s k.
Proof.
  unfold specCoef. rewrite nO_prod, <- Rprod_mult. f_equal. apply Rprod_ext.
  intros i Hi. unfold E. field. apply (g_nz r G). apply axes_In. exact Hi.
Qed.

(** Single-axis weights. *)
Definition W1 (i : nat) (x y p m : Z) : R := IZR x - imean (cl1 r i).
Definition W2 (i : nat) (x y p m : Z) : R := IZR y - imean (cl2 r i).
Definition WP (t i : nat) (x y p m : Z) : R :=
  match t with O => IZR p - imean (q1 r i) | _ => IZR m - imean (q2 r i) end.

Lemma fac_E i w S : (i < n)%nat -> S = axsum r i w -> factor r i * S = nO * E i w.
Proof. intros Hi ->. unfold factor, E. field. apply (g_nz r G i Hi). Qed.

Lemma F_a i : (i < n)%nat -> F (Co (S i) 0 0 0) = nO * E i (W1 i).
Proof. intros Hi. rewrite v_a000 by exact Hi. apply fac_E; [exact Hi|]. apply computeFirstOrderSum_spec. Qed.

Lemma F_b i : (i < n)%nat -> F (Co 0 (S i) 0 0) = nO * E i (W2 i).
Proof.
  intros Hi. rewrite v_0b00 by exact Hi. apply fac_E; [exact Hi|].
  rewrite computeFirstOrderSum_spec, msum_swap12. reflexivity.
Qed.

Lemma F_ab_diag i : (i < n)%nat ->
  F (Co (S i) (S i) 0 0) = nO * E i (fun x y p m => W1 i x y p m * W2 i x y p m).
Proof. intros Hi. rewrite v_ab00_diag by exact Hi. apply fac_E; [exact Hi|]. apply mixedSecondOrderSum_spec. Qed.

Lemma F_a0k_diag i : (i < n)%nat ->
  F (Co (S i) 0 0 (S i)) = nO * E i (fun x y p m => W1 i x y p m * W1 i x y p m) / disp1 r i.
Proof.
  intros Hi. rewrite v_a00k_diag by exact Hi. f_equal. apply fac_E; [exact Hi|]. apply computeSecondOrderSum_spec.
Qed.

Lemma F_b1k_diag i : (i < n)%nat ->
  F (Co 0 (S i) 1 (S i)) = nO * E i (fun x y p m => W2 i x y p m * W2 i x y p m) / disp2 r i.
Proof.
  intros Hi. rewrite v_0b1k_diag by exact Hi. f_equal. apply fac_E; [exact Hi|].
  rewrite computeSecondOrderSum_spec, msum_swap12. reflexivity.
Qed.

(** Product sums: orientation of [thisRR]/[otherRR]. *)
Lemma prod_orient t i (g : Z -> Z -> Z -> R) : (t < 2)%nat ->
  msum (cl1 r i) (cl2 r i) (thisRR r t i) (otherRR r t i) (fun x y p m => g x y p) =
  axsum r i (fun x y p m => g x y (match t with O => p | _ => m end)) /\
  thisDisp r t i = slotd r (t + 2) (S i) /\
  imean (thisRR r t i) = imean (match t with O => q1 r i | _ => q2 r i end).
Proof.
  intros Ht. unfold thisRR, otherRR, thisDisp, axsum. destruct t as [|[|t]]; [| |lia]; cbn [usesFirst].
  - auto.
  - destruct (same r) eqn:Hs.
    + destruct (g_same r G Hs i) as [Eq Ed]. cbn. rewrite Ed, Eq. split; [|auto].
      rewrite msum_swap34. reflexivity.
    + split; [|auto]. rewrite msum_swap34. reflexivity.
Qed.

Ltac bal := apply msum_ext; intros; reflexivity.

Lemma F_pk i t : (i < n)%nat -> (t < 2)%nat -> validProd r t = true ->
  F (Co 0 0 (t + 2) (S i)) = nO * E i (WP t i) / slotd r (t + 2) (S i).
Proof.
  intros Hi Ht Hv. rewrite v_00pk by assumption.
  destruct (@prod_orient t i (fun x y p => IZR p - imean (thisRR r t i)) Ht) as [Es [Ed Em]].
  rewrite Ed. f_equal. apply fac_E; [exact Hi|].
  rewrite computeFirstOrderSum_spec, msum_swap34, msum_swap_pairs.
  etransitivity; [exact Es|]. rewrite Em. destruct t as [|[|t]]; [reflexivity|reflexivity|lia].
Qed.

Lemma F_a0p_diag i t : (i < n)%nat -> (t < 2)%nat -> validProd r t = true ->
  F (Co (S i) 0 (t + 2) (S i)) =
  nO * E i (fun x y p m => W1 i x y p m * WP t i x y p m) / slotd r (t + 2) (S i).
Proof.
  intros Hi Ht Hv. rewrite v_a0pk_diag by assumption.
  destruct (@prod_orient t i (fun x y p => (IZR x - imean (cl1 r i)) * (IZR p - imean (thisRR r t i))) Ht) as [Es [Ed Em]].
  rewrite Ed. f_equal. apply fac_E; [exact Hi|].
  rewrite computeSecondOrderOffsetSum_spec.
  etransitivity; [exact Es|]. rewrite Em. destruct t as [|[|t]]; [reflexivity|reflexivity|lia].
Qed.

Lemma F_0bp_diag i t : (i < n)%nat -> (t < 2)%nat -> validProd r t = true ->
  F (Co 0 (S i) (t + 2) (S i)) =
  nO * E i (fun x y p m => W2 i x y p m * WP t i x y p m) / slotd r (t + 2) (S i).
Proof.
  intros Hi Ht Hv. rewrite v_0bpk_diag by assumption.
  destruct (@prod_orient t i (fun x y p => (IZR y - imean (cl2 r i)) * (IZR p - imean (thisRR r t i))) Ht) as [Es [Ed Em]].
  rewrite Ed. f_equal. apply fac_E; [exact Hi|].
  rewrite computeSecondOrderOffsetSum_spec, msum_swap12.
  etransitivity; [exact Es|]. rewrite Em. destruct t as [|[|t]]; [reflexivity|reflexivity|lia].
Qed.

Lemma F_abp_diag i t : (i < n)%nat -> (t < 2)%nat -> validProd r t = true ->
  F (Co (S i) (S i) (t + 2) (S i)) =
  nO * E i (fun x y p m => W1 i x y p m * W2 i x y p m * WP t i x y p m) / slotd r (t + 2) (S i).
Proof.
  intros Hi Ht Hv. rewrite v_abpk by assumption. rewrite !Nat.eqb_refl. cbn [andb].
  destruct (@prod_orient t i (fun x y p => (IZR x - imean (cl1 r i)) * (IZR y - imean (cl2 r i))
      * (IZR p - imean (thisRR r t i))) Ht) as [Es [Ed Em]].
  rewrite Ed. f_equal. apply fac_E; [exact Hi|].
  rewrite mixedThirdOrderSum_spec.
  etransitivity; [exact Es|]. rewrite Em. destruct t as [|[|t]]; [reflexivity|reflexivity|lia].
Qed.

Lemma F_abr_diag i : (i < n)%nat ->
  F (Co (S i) (S i) 0 (S i)) =
    nO * E i (fun x y p m => W1 i x y p m * W2 i x y p m * W1 i x y p m) / disp1 r i /\
  F (Co (S i) (S i) 1 (S i)) =
    nO * E i (fun x y p m => W1 i x y p m * W2 i x y p m * W2 i x y p m) / disp2 r i.
Proof.
  intros Hi. pose proof (@v_abrk r i i i Hi Hi Hi) as H. rewrite !Nat.eqb_refl in H. cbn [andb] in H.
  destruct H as [H1 H2]. rewrite H1, H2. split; f_equal; (apply fac_E; [exact Hi|]).
  - rewrite computeThirdOrderSum_spec, msum_swap12. apply msum_ext. intros. unfold W1, W2. ring.
  - rewrite computeThirdOrderSum_spec. apply msum_ext. intros. unfold W1, W2. ring.
Qed.

(** Reduce the specification to the axes that matter. *)
Lemma wt_1 a i v x : a <> S i -> wt a i v x = 1.
Proof. intros H. unfold wt. rewrite (proj2 (Nat.eqb_neq _ _) H). reflexivity. Qed.
Lemma wt_S i v x : wt (S i) i v x = IZR x - imean v.
Proof. unfold wt. rewrite Nat.eqb_refl. reflexivity. Qed.
Lemma slotw_1 s k i x y p m : k <> S i -> slotw r s k i x y p m = 1.
Proof. intros H. unfold slotw. destruct s as [|[|[|]]]; apply wt_1; exact H. Qed.
Lemma slotw_p t i x y p m : slotw r (t + 2) (S i) i x y p m = WP t i x y p m.
Proof. unfold slotw, WP. destruct t as [|t]; cbn [Nat.add]; [apply wt_S|].
  replace (t + 2)%nat with (S (S t)) by lia. apply wt_S. Qed.
Lemma slotw_0 i x y p m : slotw r 0 (S i) i x y p m = W1 i x y p m.
Proof. apply wt_S. Qed.
Lemma slotw_1' i x y p m : slotw r 1 (S i) i x y p m = W2 i x y p m.
Proof. apply wt_S. Qed.

Lemma axesND : NoDup (axes r).
Proof. apply seq_NoDup. Qed.

Ltac sidecond :=
  intros; apply E_1; [apply axes_In; assumption|]; intros;
  rewrite ?wt_1, ?slotw_1 by congruence; lra.
Ltac ax := apply axes_In; assumption.
Ltac evalw :=
  let w := fresh in
  repeat first [rewrite wt_S | rewrite slotw_p | rewrite slotw_0 | rewrite slotw_1'
    | rewrite wt_1 by congruence | rewrite slotw_1 by congruence];
  unfold W1, W2; try ring.
Ltac pt1 i := rewrite spec_E, (@Rprod_pt1 _ i); [|exact axesND|ax|sidecond].
Ltac pt2 i j := rewrite spec_E, (@Rprod_pt2 _ i j); [|exact axesND|ax|ax|congruence|sidecond].
Ltac pt3 i j k := rewrite spec_E, (@Rprod_pt3 _ i j k); [|exact axesND|ax|ax|ax|congruence|congruence|congruence|sidecond].
Ltac setE i w :=
  match goal with |- context [E i ?f] =>
    match f with context [slotw] => rewrite (E_ext i f w) by (intros; evalw) end end.

Lemma st00 k s : stale 0 0 s (S k) = false.
Proof. destruct s as [|[|]]; reflexivity. Qed.
Lemma st0b0 j k : stale 0 (S j) 0 (S k) = (j <? k)%nat.
Proof. unfold stale. cbn [Nat.eqb andb]. change (0 <? S j)%nat with true. change (0 <? 0)%nat with false.
  cbn [andb orb]. rewrite Bool.orb_false_r. reflexivity. Qed.
Lemma sta00 i k : stale (S i) 0 0 (S k) = false.
Proof. reflexivity. Qed.
Lemma stab i j k s : (s < 2)%nat -> stale (S i) (S j) s (S k) = ((i <? j) && (j =? k))%nat%bool.
Proof. intros Hs. destruct s as [|[|]]; [reflexivity|reflexivity|lia]. Qed.
Lemma st0b1 j k : stale 0 (S j) 1 (S k) = false.
Proof. reflexivity. Qed.
Lemma sta01 i k : stale (S i) 0 1 (S k) = false.
Proof. reflexivity. Qed.
Lemma sta0p i k t : stale (S i) 0 (t + 2) (S k) = (i <? k)%nat.
Proof. replace (t + 2)%nat with (S (S t)) by lia. unfold stale. change (0 <? S i)%nat with true.
  cbn [andb orb Nat.eqb]. rewrite Bool.orb_false_r. reflexivity. Qed.
Lemma st0bp i k t : stale 0 (S i) (t + 2) (S k) = (i <? k)%nat.
Proof. replace (t + 2)%nat with (S (S t)) by lia. reflexivity. Qed.
Lemma stabp i j k t : stale (S i) (S j) (t + 2) (S k) = false.
Proof. replace (t + 2)%nat with (S (S t)) by lia. reflexivity. Qed.

Theorem coef_correct a b s k :
  (a <= n)%nat -> (b <= n)%nat -> (k <= n)%nat -> (s < 4)%nat -> (k = 0%nat -> s = 0%nat) ->
  (2 <= s -> validProd r (s - 2) = true)%nat ->
  F (Co a b s k) = if stale a b s k then 0 else specCoef r a b s k.
Proof.
  intros Ha Hb Hk Hs Hk0 Hv.
  assert (HnO := nO_nz). assert (HD := slotd_nz).
  destruct k as [|k].
  { rewrite (Hk0 eq_refl). clear s Hs Hk0 Hv. unfold stale.
    destruct a as [|i], b as [|j].
    - cbn [Nat.eqb Nat.ltb Nat.leb andb orb]. rewrite val0, spec_E, Rprod_one; [cbn; lra|].
      intros x Hx. apply E_1; [ax|]. intros. evalw.
    - cbn [Nat.eqb Nat.ltb Nat.leb andb orb]. rewrite F_b by lia.
      pt1 j. setE j (W2 j). cbn; lra.
    - cbn [Nat.eqb Nat.ltb Nat.leb andb orb].
      rewrite F_a by lia. pt1 i. setE i (W1 i). cbn; lra.
    - cbn [Nat.eqb Nat.ltb Nat.leb andb orb]; rewrite Bool.andb_false_r.
      destruct (Nat.eq_dec i j) as [->|Hne].
      + rewrite F_ab_diag by lia. pt1 j. setE j (fun x y p m => W1 j x y p m * W2 j x y p m).
        cbn; lra.
      + rewrite v_ab00_off by (try lia; assumption). rewrite F_a, F_b by lia.
        pt2 i j. setE i (W1 i). setE j (W2 j). cbn. field. exact HnO. }
  assert (Hkn : (k < n)%nat) by lia. clear Hk Hk0.
  assert (HE1 : disp1 r k <> 0) by apply G. assert (HE2 : disp2 r k <> 0) by apply G.
  destruct s as [|[|t]].
  - (* first reactant *)
    destruct a as [|i], b as [|j]; rewrite ?st00, ?st0b0, ?sta00, ?st0b1, ?sta01, ?stab by lia.
    + rewrite v_000k, F_a by lia. pt1 k. setE k (W1 k). cbn. field. assumption.
    + rewrite v_0b0k by lia. destruct (j <? k)%nat eqn:L; [reflexivity|].
      destruct (Nat.eq_dec j k) as [->|Hne].
      * rewrite F_ab_diag by lia. pt1 k.
        setE k (fun x y p m => W1 k x y p m * W2 k x y p m). cbn. field. assumption.
      * rewrite v_ab00_off, F_a, F_b by (try lia; congruence). pt2 k j.
        setE k (W1 k). setE j (W2 j). cbn. field. auto.
    + destruct (Nat.eq_dec i k) as [->|Hne].
      * rewrite F_a0k_diag by lia. pt1 k.
        setE k (fun x y p m => W1 k x y p m * W1 k x y p m). cbn. field. assumption.
      * rewrite v_a00k_off, !F_a by (try lia; congruence). pt2 i k.
        setE i (W1 i). setE k (W1 k). cbn. field. auto.
    + pose proof (@v_abrk r i j k Ha Hb Hkn) as H. cbv zeta in H.
      destruct (Nat.eqb_spec i j) as [->|Hij]; destruct (Nat.eqb_spec j k) as [->|Hjk]; cbn [andb] in H.
      * rewrite Nat.ltb_irrefl. cbn [andb]. destruct (F_abr_diag k) as [H1 _]; [lia|]. rewrite H1.
        pt1 k. setE k (fun x y p m => W1 k x y p m * W2 k x y p m * W1 k x y p m). cbn. field. assumption.
      * rewrite Bool.andb_false_r. destruct H as [H _]. rewrite H.
        rewrite v_000k, F_a, F_ab_diag by lia. pt2 j k.
        setE j (fun x y p m => W1 j x y p m * W2 j x y p m). setE k (W1 k). cbn. field. auto.
      * rewrite (proj2 (Nat.eqb_neq i k) Hij) in H. destruct H as [H _]. rewrite H.
        rewrite Bool.andb_true_r. destruct (i <? k)%nat eqn:L; [reflexivity|].
        rewrite F_a, v_0b0k, Nat.ltb_irrefl, F_ab_diag by lia. pt2 i k.
        setE i (W1 i). setE k (fun x y p m => W1 k x y p m * W2 k x y p m). cbn. field. auto.
      * rewrite Bool.andb_false_r. destruct (Nat.eqb_spec i k) as [->|Hik].
        -- destruct H as [H _]. rewrite H. rewrite F_b, F_a0k_diag by lia. pt2 k j.
           setE k (fun x y p m => W1 k x y p m * W1 k x y p m). setE j (W2 j). cbn. field. auto.
        -- destruct H as [H _]. rewrite H. rewrite !F_a, F_b by lia. pt3 i j k.
           setE i (W1 i). setE j (W2 j). setE k (W1 k). cbn. field. auto.
  - (* second reactant *)
    destruct a as [|i], b as [|j]; rewrite ?st00, ?st0b0, ?sta00, ?st0b1, ?sta01, ?stab by lia.
    + rewrite v_001k, F_b by lia. pt1 k. setE k (W2 k). cbn. field. assumption.
    + destruct (Nat.eq_dec j k) as [->|Hne].
      * rewrite F_b1k_diag by lia. pt1 k.
        setE k (fun x y p m => W2 k x y p m * W2 k x y p m). cbn. field. assumption.
      * rewrite v_0b1k_off, !F_b by (try lia; congruence). pt2 j k.
        setE j (W2 j). setE k (W2 k). cbn. field. auto.
    + rewrite v_a01k by lia. destruct (Nat.eq_dec i k) as [->|Hne].
      * rewrite F_ab_diag by lia. pt1 k.
        setE k (fun x y p m => W1 k x y p m * W2 k x y p m). cbn. field. assumption.
      * rewrite v_ab00_off, F_a, F_b by (try lia; congruence). pt2 i k.
        setE i (W1 i). setE k (W2 k). cbn. field. auto.
    + pose proof (@v_abrk r i j k Ha Hb Hkn) as H. cbv zeta in H.
      destruct (Nat.eqb_spec i j) as [->|Hij]; destruct (Nat.eqb_spec j k) as [->|Hjk]; cbn [andb] in H.
      * rewrite Nat.ltb_irrefl. cbn [andb]. destruct (F_abr_diag k) as [_ H1]; [lia|]. rewrite H1.
        pt1 k. setE k (fun x y p m => W1 k x y p m * W2 k x y p m * W2 k x y p m). cbn. field. assumption.
      * rewrite Bool.andb_false_r. destruct H as [_ H]. rewrite H.
        rewrite v_001k, F_b, F_ab_diag by lia. pt2 j k.
        setE j (fun x y p m => W1 j x y p m * W2 j x y p m). setE k (W2 k). cbn. field. auto.
      * rewrite (proj2 (Nat.eqb_neq i k) Hij) in H. destruct H as [_ H]. rewrite H.
        rewrite Bool.andb_true_r. destruct (i <? k)%nat eqn:L; [reflexivity|].
        rewrite F_a, F_b1k_diag by lia. pt2 i k.
        setE i (W1 i). setE k (fun x y p m => W2 k x y p m * W2 k x y p m). cbn. field. auto.
      * rewrite Bool.andb_false_r. destruct (Nat.eqb_spec i k) as [->|Hik].
        -- destruct H as [_ H]. rewrite H. rewrite F_b, v_a01k, F_ab_diag by lia. pt2 k j.
           setE k (fun x y p m => W1 k x y p m * W2 k x y p m). setE j (W2 j). cbn. field. auto.
        -- destruct H as [_ H]. rewrite H. rewrite F_a, !F_b by lia. pt3 i j k.
           setE i (W1 i). setE j (W2 j). setE k (W2 k). cbn. field. auto.
  - (* products *)
    assert (Ht : (t < 2)%nat) by lia. replace (S (S t) - 2)%nat with t in Hv by lia.
    specialize (Hv ltac:(lia)). replace (S (S t)) with (t + 2)%nat by lia.
    specialize (HD (t + 2)%nat (S k)).
    destruct a as [|i], b as [|j]; rewrite ?st00, ?sta0p, ?st0bp, ?stabp.
    + rewrite F_pk by assumption. pt1 k. setE k (WP t k). field. assumption.
    + destruct (Nat.eq_dec j k) as [->|Hne].
      * rewrite Nat.ltb_irrefl, F_0bp_diag by assumption. pt1 k.
        setE k (fun x y p m => W2 k x y p m * WP t k x y p m). field. assumption.
      * rewrite v_0bpk_off by (try assumption; congruence).
        destruct (j <? k)%nat; [reflexivity|]. rewrite F_b, F_pk by assumption. pt2 j k.
        setE j (W2 j). setE k (WP t k). field. auto.
    + destruct (Nat.eq_dec i k) as [->|Hne].
      * rewrite Nat.ltb_irrefl, F_a0p_diag by assumption. pt1 k.
        setE k (fun x y p m => W1 k x y p m * WP t k x y p m). field. assumption.
      * rewrite v_a0pk_off by (try assumption; congruence).
        destruct (i <? k)%nat; [reflexivity|]. rewrite F_a, F_pk by assumption. pt2 i k.
        setE i (W1 i). setE k (WP t k). field. auto.
    + pose proof (@v_abpk r i j t k Ha Hb Ht Hkn Hv) as H.
      destruct (Nat.eqb_spec i j) as [->|Hij]; destruct (Nat.eqb_spec j k) as [->|Hjk]; cbn [andb] in H.
      * rewrite F_abp_diag by assumption. pt1 k.
        setE k (fun x y p m => W1 k x y p m * W2 k x y p m * WP t k x y p m). field. assumption.
      * rewrite H, F_pk, F_ab_diag by assumption. pt2 j k.
        setE j (fun x y p m => W1 j x y p m * W2 j x y p m). setE k (WP t k). field. auto.
      * rewrite H, F_a, F_0bp_diag by assumption. pt2 i k.
        setE i (W1 i). setE k (fun x y p m => W2 k x y p m * WP t k x y p m). field. auto.
      * destruct (Nat.eqb_spec i k) as [->|Hik].
        -- rewrite H, F_b, F_a0p_diag by assumption. pt2 k j.
           setE k (fun x y p m => W1 k x y p m * WP t k x y p m). setE j (W2 j). field. auto.
        -- rewrite H, F_a, F_b, F_pk by assumption. pt3 i j k.
           setE i (W1 i). setE j (W2 j). setE k (WP t k). field. auto.
Qed.
End CORRECT.
