From Verif Require Export CoefSpec RegionProofs.
Open Scope nat_scope.

Ltac brk :=
  repeat match goal with
  | H : _ /\ _ |- _ => destruct H
  | H : exists _, _ |- _ => destruct H
  | H : _ \/ _ |- _ => destruct H
  | H : Co _ _ _ _ = Co _ _ _ _ |- _ => injection H; clear H; intros; subst
  end.

Ltac clash := brk; subst; try contradiction;
  repeat match goal with H : Co _ _ _ _ = Co _ _ _ _ |- _ =>
    injection H; clear H; intros; subst end;
  try discriminate; try contradiction; try lia.

(** * Which entries are assigned, and that each is assigned once *)
Section KEYS.
Variable r : preact.
Notation n := (na r).

Lemma axes_In i : In i (axes r) <-> i < n.
Proof. unfold axes. rewrite in_seq. lia. Qed.

Lemma loop1k_keys i p k : keys (loop1k r i p k)
  = [Co (S i) 0 (p + 2) (S k); Co 0 (S i) (p + 2) (S k)].
Proof. unfold loop1k. destruct (k =? i); reflexivity. Qed.

Lemma loop1p_In i p x : In x (keys (loop1p r i p)) <->
  validProd r p = true /\ (x = Co 0 0 (p + 2) (S i) \/ exists k, k < n /\
    (x = Co (S i) 0 (p + 2) (S k) \/ x = Co 0 (S i) (p + 2) (S k))).
Proof.
  unfold loop1p. destruct (validProd r p).
  - cbn [keys map In]. fold (keys (flat_map (loop1k r i p) (axes r))).
    rewrite in_keys_flat_map. split.
    + intros [E|[k [Hk H]]]; split; auto.
      right. exists k. rewrite axes_In in Hk. split; auto.
      rewrite loop1k_keys in H. cbn in H. intuition congruence.
    + intros [_ [E|[k [Hk H]]]]; auto. right. exists k. rewrite axes_In. split; auto.
      rewrite loop1k_keys. cbn. intuition congruence.
  - cbn. split; [contradiction|]. intros [E _]. discriminate.
Qed.

Lemma loop1_In i x : In x (keys (loop1 r i)) <->
  x = Co (S i) 0 0 0 \/ x = Co 0 0 0 (S i) \/ x = Co 0 (S i) 0 0 \/ x = Co 0 0 1 (S i) \/
  exists p, p < 2 /\ validProd r p = true /\
    (x = Co 0 0 (p + 2) (S i) \/ exists k, k < n /\
      (x = Co (S i) 0 (p + 2) (S k) \/ x = Co 0 (S i) (p + 2) (S k))).
Proof.
  unfold loop1. rewrite keys_app, in_app_iff, in_keys_flat_map. split.
  - intros [H|[p [Hp H]]].
    + cbn in H. intuition congruence.
    + rewrite in_seq in Hp. rewrite loop1p_In in H.
      do 4 right. exists p. split; [lia|]. exact H.
  - intros [H|[H|[H|[H|[p [Hp H]]]]]]; [left; cbn; auto 6 ..|].
    right. exists p. rewrite in_seq, loop1p_In. split; [lia|]. exact H.
Qed.

Lemma loop2a_keys i j : keys (loop2a r i j) = [Co (S i) (S j) 0 0].
Proof. reflexivity. Qed.

Lemma loop2b_keys i k : keys (loop2b r i k)
  = [Co (S i) 0 0 (S k); Co 0 (S i) 1 (S k); Co 0 (S i) 0 (S k); Co (S i) 0 1 (S k)].
Proof. unfold loop2b. destruct (k =? i); reflexivity. Qed.

Lemma loop2pk_keys i j p k : keys (loop2pk r i j p k) = [Co (S i) (S j) (p + 2) (S k)].
Proof. reflexivity. Qed.

Lemma loop2rk_keys i j k : keys (loop2rk r i j k)
  = [Co (S i) (S j) 0 (S k); Co (S i) (S j) 1 (S k)].
Proof.
  unfold loop2rk. destruct ((i =? j) && (j =? k))%bool; [reflexivity|].
  destruct (i =? k); [reflexivity|]. destruct (j =? k); [reflexivity|].
  destruct (i =? j); reflexivity.
Qed.

Lemma loop2p_In i j p x : In x (keys (loop2p r i j p)) <->
  validProd r p = true /\ exists k, k < n /\ x = Co (S i) (S j) (p + 2) (S k).
Proof.
  unfold loop2p. destruct (validProd r p).
  - rewrite in_keys_flat_map. split.
    + intros [k [Hk H]]. split; auto. exists k. rewrite axes_In in Hk.
      rewrite loop2pk_keys in H. cbn in H. intuition congruence.
    + intros [_ [k [Hk H]]]. exists k. rewrite axes_In, loop2pk_keys. cbn. auto.
  - cbn. split; [contradiction|]. intros [E _]. discriminate.
Qed.

Lemma loop2j_In i j x : In x (keys (loop2j r i j)) <->
  (exists p k, p < 2 /\ validProd r p = true /\ k < n /\ x = Co (S i) (S j) (p + 2) (S k)) \/
  (exists k, k < n /\ (x = Co (S i) (S j) 0 (S k) \/ x = Co (S i) (S j) 1 (S k))).
Proof.
  unfold loop2j. rewrite keys_app, in_app_iff, !in_keys_flat_map. split.
  - intros [[p [Hp H]]|[k [Hk H]]].
    + left. rewrite in_seq in Hp. rewrite loop2p_In in H. destruct H as [Hv [k [Hk H]]].
      exists p, k. repeat split; auto; lia.
    + right. rewrite axes_In in Hk. exists k. split; auto.
      rewrite loop2rk_keys in H. cbn in H. intuition congruence.
  - intros [[p [k [Hp [Hv [Hk H]]]]]|[k [Hk H]]].
    + left. exists p. rewrite in_seq, loop2p_In. split; [lia|]. eauto.
    + right. exists k. rewrite axes_In, loop2rk_keys. cbn. intuition congruence.
Qed.

Lemma loop2_In i x : In x (keys (loop2 r i)) <->
  (exists j, j < n /\ x = Co (S i) (S j) 0 0) \/
  (exists k, k < n /\ (x = Co (S i) 0 0 (S k) \/ x = Co 0 (S i) 1 (S k) \/
     x = Co 0 (S i) 0 (S k) \/ x = Co (S i) 0 1 (S k))) \/
  (exists j, j < n /\ ((exists p k, p < 2 /\ validProd r p = true /\ k < n /\
        x = Co (S i) (S j) (p + 2) (S k)) \/
     (exists k, k < n /\ (x = Co (S i) (S j) 0 (S k) \/ x = Co (S i) (S j) 1 (S k))))).
Proof.
  unfold loop2. rewrite !keys_app, !in_app_iff, !in_keys_flat_map. split.
  - intros [[j [Hj H]]|[[k [Hk H]]|[j [Hj H]]]]; rewrite axes_In in *.
    + left. exists j. rewrite loop2a_keys in H. cbn in H. intuition congruence.
    + right; left. exists k. rewrite loop2b_keys in H. cbn in H. intuition congruence.
    + right; right. exists j. rewrite loop2j_In in H. auto.
  - intros [[j [Hj H]]|[[k [Hk H]]|[j [Hj H]]]].
    + left. exists j. rewrite axes_In, loop2a_keys. cbn. auto.
    + right; left. exists k. rewrite axes_In, loop2b_keys. cbn. intuition congruence.
    + right; right. exists j. rewrite axes_In, loop2j_In. auto.
Qed.

Lemma coefProgram_NoDup : NoDup (keys (coefProgram r)).
Proof.
  assert (Hnd : NoDup (axes r)) by apply seq_NoDup.
  unfold coefProgram. cbn [keys map]. fold (keys (flat_map (loop1 r) (axes r) ++ flat_map (loop2 r) (axes r))).
  cbn [fst]. constructor.
  - rewrite keys_app, in_app_iff, !in_keys_flat_map.
    intros [[i [Hi H]]|[i [Hi H]]].
    + rewrite loop1_In in H. brk; discriminate.
    + rewrite loop2_In in H. brk; discriminate.
  - rewrite keys_app. apply NoDup_app_i.
    + apply NoDup_keys_flat_map; [exact Hnd| |].
      * intros i Hi. unfold loop1. rewrite keys_app. apply NoDup_app_i.
        -- cbn. repeat constructor; cbn; intuition congruence.
        -- apply NoDup_keys_flat_map; [apply seq_NoDup| |].
           ++ intros p Hp. unfold loop1p. destruct (validProd r p); [|constructor].
              cbn [keys map fst]. fold (keys (flat_map (loop1k r i p) (axes r))).
              constructor.
              ** rewrite in_keys_flat_map. intros [k [_ H]].
                 rewrite loop1k_keys in H. cbn in H. intuition congruence.
              ** apply NoDup_keys_flat_map; [exact Hnd| |].
                 --- intros k _. rewrite loop1k_keys.
                     repeat constructor; cbn; intuition congruence.
                 --- intros k k' x _ _ Hne. rewrite !loop1k_keys. cbn. intuition congruence.
           ++ intros p p' x Hp Hp' Hne H H'. rewrite loop1p_In in H, H'. clash.
        -- intros x H H'. rewrite in_keys_flat_map in H'. destruct H' as [p [Hp H']].
           rewrite loop1p_In in H'. cbn in H.
           clash.
      * intros i i' x _ _ Hne H H'. rewrite loop1_In in H, H'. clash.
    + apply NoDup_keys_flat_map; [exact Hnd| |].
      * intros i _. unfold loop2. rewrite !keys_app. apply NoDup_app_i; [|apply NoDup_app_i|].
        -- apply NoDup_keys_flat_map; [exact Hnd| |].
           ++ intros j _. rewrite loop2a_keys. repeat constructor. cbn. tauto.
           ++ intros j j' x _ _ Hne. rewrite !loop2a_keys. cbn. intuition congruence.
        -- apply NoDup_keys_flat_map; [exact Hnd| |].
           ++ intros j _. rewrite loop2b_keys. repeat constructor; cbn; intuition congruence.
           ++ intros j j' x _ _ Hne. rewrite !loop2b_keys. cbn. intuition congruence.
        -- apply NoDup_keys_flat_map; [exact Hnd| |].
           ++ intros j _. unfold loop2j. rewrite keys_app. apply NoDup_app_i.
              ** apply NoDup_keys_flat_map; [apply seq_NoDup| |].
                 --- intros p _. unfold loop2p. destruct (validProd r p); [|constructor].
                     apply NoDup_keys_flat_map; [exact Hnd| |].
                     +++ intros k _. rewrite loop2pk_keys. repeat constructor. cbn. tauto.
                     +++ intros k k' x _ _ Hne. rewrite !loop2pk_keys. cbn. intuition congruence.
                 --- intros p p' x _ _ Hne H H'. rewrite loop2p_In in H, H'. clash.
              ** apply NoDup_keys_flat_map; [exact Hnd| |].
                 --- intros k _. rewrite loop2rk_keys. repeat constructor; cbn; intuition congruence.
                 --- intros k k' x _ _ Hne. rewrite !loop2rk_keys. cbn. intuition congruence.
              ** intros x H H'. rewrite in_keys_flat_map in H, H'.
                 destruct H as [p [_ H]], H' as [k [_ H']].
                 rewrite loop2p_In in H. rewrite loop2rk_keys in H'. cbn in H'.
                 clash.
           ++ intros j j' x _ _ Hne H H'. rewrite loop2j_In in H, H'. clash.
        -- intros x H H'. rewrite in_keys_flat_map in H, H'.
           destruct H as [p [_ H]], H' as [k [_ H']]. rewrite loop2b_keys in H. rewrite loop2j_In in H'.
           cbn in H. clash.
        -- intros x H H'. rewrite in_app_iff, !in_keys_flat_map in H'.
           rewrite in_keys_flat_map in H.
           destruct H as [p [_ H]]. rewrite loop2a_keys in H. cbn in H.
           destruct H' as [[k [_ H']]|[k [_ H']]].
           ++ rewrite loop2b_keys in H'. cbn in H'. clash.
           ++ rewrite loop2j_In in H'. clash.
      * intros i i' x _ _ Hne H H'. rewrite loop2_In in H, H'. clash.
    + intros x H H'. rewrite in_keys_flat_map in H, H'.
      destruct H as [i [_ H]], H' as [i' [_ H']]. rewrite loop1_In in H. rewrite loop2_In in H'.
      clash.
Qed.
End KEYS.

(** * Final values in terms of other final values *)
Section VAL.
Variable r : preact.
Notation n := (na r).
Notation F := (prodCoefs r).
Open Scope R_scope.

Lemma val0 : F (Co 0 0 0 0) = nOverlap r.
Proof.
  unfold prodCoefs. change (coefProgram r) with ([] ++ coefProgram r).
  unfold coefProgram.
  apply (exec_at cidx_dec [] (Co 0 0 0 0) (fun _ => nOverlap r)).
  pose proof (coefProgram_NoDup r) as H. unfold coefProgram in H. cbn [keys map fst] in H.
  inversion H; subst. assumption.
Qed.

Lemma val1 i pre k e : (i < n)%nat -> At (loop1 r i) pre k e ->
  exists st, F k = e st /\
    (forall k', In k' (keys pre) -> st k' = F k') /\
    (forall i' k', (i' < i)%nat -> In k' (keys (loop1 r i')) -> st k' = F k') /\
    (forall k', ~ In k' (keys pre) -> (forall i', (i' < i)%nat -> ~ In k' (keys (loop1 r i'))) ->
       k' <> Co 0 0 0 0 -> st k' = 0).
Proof.
  intros Hi HA.
  assert (HB : At (coefProgram r)
     ((Co 0 0 0 0, fun _ => nOverlap r) :: flat_map (loop1 r) (seq 0 i) ++ pre) k e).
  { unfold coefProgram. apply At_cons, At_app_l. unfold axes. apply At_flat_map; assumption. }
  destruct (At_exec cidx_dec (fun _ => 0) (coefProgram_NoDup r) HB) as [E [H1 H2]].
  eexists. split; [exact E|]. split; [|split].
  - intros k' H. apply H1. cbn [keys map]. right. fold (keys (flat_map (loop1 r) (seq 0 i) ++ pre)).
    rewrite keys_app, in_app_iff. auto.
  - intros i' k' Hi' H. apply H1. cbn [keys map]. right. fold (keys (flat_map (loop1 r) (seq 0 i) ++ pre)).
    rewrite keys_app, in_app_iff, in_keys_flat_map. left. exists i'. rewrite in_seq. split; [lia|assumption].
  - intros k' Ha Hb Hc. apply H2. cbn [keys map fst]. intros [E0|H]; [congruence|].
    fold (keys (flat_map (loop1 r) (seq 0 i) ++ pre)) in H.
    rewrite keys_app, in_app_iff, in_keys_flat_map in H. destruct H as [[i' [Hi' H]]|H]; [|auto].
    rewrite in_seq in Hi'. apply (Hb i'); [lia|assumption].
Qed.

Lemma val2 i pre k e : (i < n)%nat -> At (loop2 r i) pre k e ->
  exists st, F k = e st /\
    (forall k', In k' (keys pre) -> st k' = F k') /\
    (forall i' k', (i' < n)%nat -> In k' (keys (loop1 r i')) -> st k' = F k') /\
    (forall i' k', (i' < i)%nat -> In k' (keys (loop2 r i')) -> st k' = F k') /\
    (forall k', ~ In k' (keys pre) -> (forall i', (i' < n)%nat -> ~ In k' (keys (loop1 r i'))) ->
       (forall i', (i' < i)%nat -> ~ In k' (keys (loop2 r i'))) ->
       k' <> Co 0 0 0 0 -> st k' = 0).
Proof.
  intros Hi HA.
  assert (HB : At (coefProgram r)
     ((Co 0 0 0 0, fun _ => nOverlap r) :: flat_map (loop1 r) (axes r) ++ flat_map (loop2 r) (seq 0 i) ++ pre) k e).
  { unfold coefProgram. apply At_cons, At_app_r. unfold axes. apply At_flat_map; assumption. }
  destruct (At_exec cidx_dec (fun _ => 0) (coefProgram_NoDup r) HB) as [E [H1 H2]].
  assert (HI : forall k', In k' (keys ((Co 0 0 0 0, fun _ => nOverlap r)
      :: flat_map (loop1 r) (axes r) ++ flat_map (loop2 r) (seq 0 i) ++ pre)) <->
     k' = Co 0 0 0 0 \/ (exists i', (i' < n)%nat /\ In k' (keys (loop1 r i'))) \/
     (exists i', (i' < i)%nat /\ In k' (keys (loop2 r i'))) \/ In k' (keys pre)).
  { intros k'. cbn [keys map fst In].
    fold (keys (flat_map (loop1 r) (axes r) ++ flat_map (loop2 r) (seq 0 i) ++ pre)).
    rewrite !keys_app, !in_app_iff, !in_keys_flat_map.
    assert (Ha : (exists x, In x (axes r) /\ In k' (keys (loop1 r x))) <->
                 (exists i', (i' < n)%nat /\ In k' (keys (loop1 r i')))).
    { split; intros [x [Hx H]]; exists x; rewrite axes_In in *; auto. }
    assert (Hb : (exists x, In x (seq 0 i) /\ In k' (keys (loop2 r x))) <->
                 (exists i', (i' < i)%nat /\ In k' (keys (loop2 r i')))).
    { split; intros [x [Hx H]]; exists x; rewrite in_seq in *; split; auto; lia. }
    rewrite Ha, Hb. intuition congruence. }
  eexists. split; [exact E|]. split; [|split; [|split]].
  - intros k' H. apply H1, HI. auto.
  - intros i' k' Hi' H. apply H1, HI. eauto.
  - intros i' k' Hi' H. apply H1, HI. eauto 6.
  - intros k' Ha Hb Hc Hd. apply H2. rewrite HI. intros [H|[[i' [Hi' H]]|[[i' [Hi' H]]|H]]]; eauto.
    + exact (Hb i' Hi' H).
    + exact (Hc i' Hi' H).
Qed.

(** Entries of the first loop. *)
Lemma v_a000 i : (i < n)%nat -> F (Co (S i) 0 0 0) =
  factor r i * computeFirstOrderSum (cl1 r i) (cl2 r i) (q1 r i) (q2 r i).
Proof.
  intros Hi. edestruct (fun pre e => @val1 i pre (Co (S i) 0 0 0) e Hi) as [st [E _]].
  - unfold loop1. apply At_app_l. apply At_here.
  - exact E.
Qed.

Lemma v_000k i : (i < n)%nat -> F (Co 0 0 0 (S i)) = F (Co (S i) 0 0 0) / disp1 r i.
Proof.
  intros Hi. edestruct (fun pre e => @val1 i pre (Co 0 0 0 (S i)) e Hi) as [st [E [H _]]].
  - unfold loop1. apply At_app_l. apply At_cons, At_here.
  - rewrite E, H; [reflexivity|]. cbn; auto.
Qed.

Lemma v_0b00 i : (i < n)%nat -> F (Co 0 (S i) 0 0) =
  factor r i * computeFirstOrderSum (cl2 r i) (cl1 r i) (q1 r i) (q2 r i).
Proof.
  intros Hi. edestruct (fun pre e => @val1 i pre (Co 0 (S i) 0 0) e Hi) as [st [E [H _]]].
  - unfold loop1. apply At_app_l. do 2 apply At_cons. apply At_here.
  - exact E.
Qed.

Lemma v_001k i : (i < n)%nat -> F (Co 0 0 1 (S i)) = F (Co 0 (S i) 0 0) / disp2 r i.
Proof.
  intros Hi. edestruct (fun pre e => @val1 i pre (Co 0 0 1 (S i)) e Hi) as [st [E [H _]]].
  - unfold loop1. apply At_app_l. do 3 apply At_cons. apply At_here.
  - rewrite E, H; [reflexivity|]. cbn; auto.
Qed.

Lemma At_loop1p i p pre k e : (p < 2)%nat -> validProd r p = true ->
  At (flat_map (loop1k r i p) (axes r)) pre k e ->
  exists pre', At (loop1 r i) pre' k e /\
    forall x, In x (keys pre') <-> (x = Co (S i) 0 0 0 \/ x = Co 0 0 0 (S i) \/ x = Co 0 (S i) 0 0 \/
       x = Co 0 0 1 (S i) \/ x = Co 0 0 (p + 2) (S i) \/
       (exists p', (p' < p)%nat /\ In x (keys (loop1p r i p'))) \/ In x (keys pre)).
Proof.
  intros Hp Hv HA. eexists. split.
  - unfold loop1. apply At_app_r. apply At_flat_map with (i := p); [exact Hp|].
    unfold loop1p. rewrite Hv. apply At_cons. exact HA.
  - intros x. rewrite !keys_app. cbn [keys map fst app In]. rewrite !in_app_iff.
    fold (keys (flat_map (loop1p r i) (seq 0 p))). rewrite in_keys_flat_map.
    cbn [In]. fold (keys pre).
    assert (Hb : (exists x0, In x0 (seq 0 p) /\ In x (keys (loop1p r i x0))) <->
                 (exists p', (p' < p)%nat /\ In x (keys (loop1p r i p')))).
    { split; intros [y [Hy H]]; exists y; rewrite in_seq in *; split; auto; lia. }
    rewrite Hb. intuition congruence.
Qed.

Lemma v_00pk i p : (i < n)%nat -> (p < 2)%nat -> validProd r p = true ->
  F (Co 0 0 (p + 2) (S i)) =
  factor r i * computeFirstOrderSum (thisRR r p i) (otherRR r p i) (cl2 r i) (cl1 r i) / thisDisp r p i.
Proof.
  intros Hi Hp Hv. edestruct (fun pre e => @val1 i pre (Co 0 0 (p+2) (S i)) e Hi) as [st [E [H _]]].
  - unfold loop1. apply At_app_r. apply At_flat_map with (i := p); [exact Hp|].
    unfold loop1p. rewrite Hv. apply At_here.
  - exact E.
Qed.

Lemma v_a0pk_diag i p : (i < n)%nat -> (p < 2)%nat -> validProd r p = true ->
  F (Co (S i) 0 (p + 2) (S i)) =
  factor r i * computeSecondOrderOffsetSum (cl1 r i) (cl2 r i) (thisRR r p i) (otherRR r p i) / thisDisp r p i.
Proof.
  intros Hi Hp Hv.
  assert (HA : exists pre, At (flat_map (loop1k r i p) (axes r)) pre (Co (S i) 0 (p + 2) (S i))
     (fun _ => factor r i * computeSecondOrderOffsetSum (cl1 r i) (cl2 r i) (thisRR r p i) (otherRR r p i) / thisDisp r p i)).
  { eexists. unfold axes. apply At_flat_map with (i := i); [exact Hi|].
    unfold loop1k. rewrite Nat.eqb_refl. apply At_here. }
  destruct HA as [pre HA]. destruct (@At_loop1p i p _ _ _ Hp Hv HA) as [pre' [HA' _]].
  destruct (@val1 i _ _ _ Hi HA') as [st [E _]]. exact E.
Qed.

Lemma v_0bpk_diag i p : (i < n)%nat -> (p < 2)%nat -> validProd r p = true ->
  F (Co 0 (S i) (p + 2) (S i)) =
  factor r i * computeSecondOrderOffsetSum (cl2 r i) (cl1 r i) (thisRR r p i) (otherRR r p i) / thisDisp r p i.
Proof.
  intros Hi Hp Hv.
  assert (HA : exists pre, At (flat_map (loop1k r i p) (axes r)) pre (Co 0 (S i) (p + 2) (S i))
     (fun _ => factor r i * computeSecondOrderOffsetSum (cl2 r i) (cl1 r i) (thisRR r p i) (otherRR r p i) / thisDisp r p i)).
  { eexists. unfold axes. apply At_flat_map with (i := i); [exact Hi|].
    unfold loop1k. rewrite Nat.eqb_refl. apply At_cons, At_here. }
  destruct HA as [pre HA]. destruct (@At_loop1p i p _ _ _ Hp Hv HA) as [pre' [HA' _]].
  destruct (@val1 i _ _ _ Hi HA') as [st [E _]]. exact E.
Qed.

(** Off-diagonal: correct when k comes before i, and 0 when k comes after. *)
Lemma v_a0pk_off i p k : (i < n)%nat -> (k < n)%nat -> (p < 2)%nat -> validProd r p = true -> k <> i ->
  F (Co (S i) 0 (p + 2) (S k)) =
  if (i <? k)%nat then 0 else F (Co (S i) 0 0 0) * F (Co 0 0 (p + 2) (S k)) / nOverlap r.
Proof.
  intros Hi Hk Hp Hv Hne.
  assert (HA : exists pre, At (flat_map (loop1k r i p) (axes r)) pre (Co (S i) 0 (p + 2) (S k))
     (fun st => st (Co (S i) 0 0 0) * st (Co 0 0 (p + 2) (S k)) / nOverlap r) /\
     (forall x, In x (keys pre) -> exists k', In x (keys (loop1k r i p k')))).
  { eexists. unfold axes. split.
    - apply At_flat_map with (i := k); [exact Hk|].
      unfold loop1k. rewrite (proj2 (Nat.eqb_neq k i) Hne). apply At_here.
    - intros x H. rewrite app_nil_r, in_keys_flat_map in H. destruct H as [k' [_ H]]. eauto. }
  destruct HA as [pre [HA Hpre]]. destruct (@At_loop1p i p _ _ _ Hp Hv HA) as [pre' [HA' Hpre']].
  destruct (@val1 i _ _ _ Hi HA') as [st [E [H1 [H2 H3]]]]. rewrite E.
  rewrite (H1 (Co (S i) 0 0 0)) by (rewrite Hpre'; auto).
  destruct (i <? k)%nat eqn:Hik.
  - apply Nat.ltb_lt in Hik. rewrite (H3 (Co 0 0 (p + 2) (S k))).
    + lra.
    + rewrite Hpre'. intros H.
      destruct H as [H|[H|[H|[H|[H|[H|H]]]]]]; try discriminate; try (injection H; lia).
      * destruct H as [p' [Hp' H]]. rewrite loop1p_In in H. clash.
      * apply Hpre in H. destruct H as [k' H]. rewrite loop1k_keys in H. cbn in H. intuition congruence.
    + intros i' Hi'. rewrite loop1_In. intros H. clash.
    + intros H. injection H; lia.
  - apply Nat.ltb_ge in Hik.
    rewrite (H2 k (Co 0 0 (p + 2) (S k))); [reflexivity|lia|].
    rewrite loop1_In. do 4 right. exists p. auto.
Qed.

Lemma v_0bpk_off i p k : (i < n)%nat -> (k < n)%nat -> (p < 2)%nat -> validProd r p = true -> k <> i ->
  F (Co 0 (S i) (p + 2) (S k)) =
  if (i <? k)%nat then 0 else F (Co 0 (S i) 0 0) * F (Co 0 0 (p + 2) (S k)) / nOverlap r.
Proof.
  intros Hi Hk Hp Hv Hne.
  assert (HA : exists pre, At (flat_map (loop1k r i p) (axes r)) pre (Co 0 (S i) (p + 2) (S k))
     (fun st => st (Co 0 (S i) 0 0) * st (Co 0 0 (p + 2) (S k)) / nOverlap r) /\
     (forall x, In x (keys pre) -> exists k', In x (keys (loop1k r i p k')))).
  { eexists. unfold axes. split.
    - apply At_flat_map with (i := k); [exact Hk|].
      unfold loop1k. rewrite (proj2 (Nat.eqb_neq k i) Hne). apply At_cons, At_here.
    - intros x H. rewrite keys_app, in_app_iff, in_keys_flat_map in H.
      destruct H as [[k' [_ H]]|H]; [eauto|]. exists k. rewrite loop1k_keys. cbn in *. tauto. }
  destruct HA as [pre [HA Hpre]]. destruct (@At_loop1p i p _ _ _ Hp Hv HA) as [pre' [HA' Hpre']].
  destruct (@val1 i _ _ _ Hi HA') as [st [E [H1 [H2 H3]]]]. rewrite E.
  rewrite (H1 (Co 0 (S i) 0 0)) by (rewrite Hpre'; auto).
  destruct (i <? k)%nat eqn:Hik.
  - apply Nat.ltb_lt in Hik. rewrite (H3 (Co 0 0 (p + 2) (S k))).
    + lra.
    + rewrite Hpre'. intros H.
      destruct H as [H|[H|[H|[H|[H|[H|H]]]]]]; try discriminate; try (injection H; lia).
      * destruct H as [p' [Hp' H]]. rewrite loop1p_In in H. clash.
      * apply Hpre in H. destruct H as [k' H]. rewrite loop1k_keys in H. cbn in H. intuition congruence.
    + intros i' Hi'. rewrite loop1_In. intros H. clash.
    + intros H. injection H; lia.
  - apply Nat.ltb_ge in Hik.
    rewrite (H2 k (Co 0 0 (p + 2) (S k))); [reflexivity|lia|].
    rewrite loop1_In. do 4 right. exists p. auto.
Qed.

(** Entries of the second loop. *)
Definition memb1 (x : cidx) := exists i', (i' < n)%nat /\ In x (keys (loop1 r i')).

Lemma memb1_a000 i : (i < n)%nat -> In (Co (S i) 0 0 0) (keys (loop1 r i)).
Proof. intros. rewrite loop1_In. auto. Qed.
Lemma memb1_0b00 i : (i < n)%nat -> In (Co 0 (S i) 0 0) (keys (loop1 r i)).
Proof. intros. rewrite loop1_In. auto. Qed.
Lemma memb1_000k i : (i < n)%nat -> In (Co 0 0 0 (S i)) (keys (loop1 r i)).
Proof. intros. rewrite loop1_In. auto. Qed.
Lemma memb1_001k i : (i < n)%nat -> In (Co 0 0 1 (S i)) (keys (loop1 r i)).
Proof. intros. rewrite loop1_In. auto 6. Qed.
Lemma memb1_00pk i p : (i < n)%nat -> (p < 2)%nat -> validProd r p = true ->
  In (Co 0 0 (p + 2) (S i)) (keys (loop1 r i)).
Proof. intros. rewrite loop1_In. do 4 right. eauto 6. Qed.
Lemma memb1_a0pk i p k : (i < n)%nat -> (p < 2)%nat -> validProd r p = true -> (k < n)%nat ->
  In (Co (S i) 0 (p + 2) (S k)) (keys (loop1 r i)).
Proof. intros. rewrite loop1_In. do 4 right. exists p. eauto 9. Qed.
Lemma memb1_0bpk i p k : (i < n)%nat -> (p < 2)%nat -> validProd r p = true -> (k < n)%nat ->
  In (Co 0 (S i) (p + 2) (S k)) (keys (loop1 r i)).
Proof. intros. rewrite loop1_In. do 4 right. exists p. eauto 9. Qed.

Lemma val2a i j k e : (i < n)%nat -> (j < n)%nat -> loop2a r i j = [(k, e)] ->
  exists st, F k = e st /\ (forall i' k', (i' < n)%nat -> In k' (keys (loop1 r i')) -> st k' = F k')
    /\ st (Co (S i) (S j) 0 0) = 0.
Proof.
  intros Hi Hj Hk.
  assert (HA : At (loop2 r i) (flat_map (loop2a r i) (seq 0 j) ++ []) k e).
  { unfold loop2. apply At_app_l. unfold axes. apply At_flat_map; [exact Hj|]. rewrite Hk. apply At_here. }
  destruct (@val2 i _ _ _ Hi HA) as [st [E [H1 [H2 [H3 H4]]]]].
  exists st. split; [exact E|]. split; [exact H2|]. apply H4.
  - rewrite app_nil_r, in_keys_flat_map. intros [j' [Hj' H]].
    rewrite in_seq in Hj'. rewrite loop2a_keys in H. cbn in H. clash.
  - intros i' Hi'. rewrite loop1_In. intros H. clash.
  - intros i' Hi'. rewrite loop2_In. intros H. clash.
  - discriminate.
Qed.

Lemma v_ab00_diag i : (i < n)%nat -> F (Co (S i) (S i) 0 0) =
  factor r i * mixedSecondOrderSum (cl1 r i) (cl2 r i) (q1 r i) (q2 r i).
Proof.
  intros Hi. edestruct (@val2a i i) as [st [E [H1 H2]]]; [exact Hi|exact Hi|reflexivity|].
  rewrite E, Nat.eqb_refl, H2. lra.
Qed.

Lemma v_ab00_off i j : (i < n)%nat -> (j < n)%nat -> i <> j -> F (Co (S i) (S j) 0 0) =
  F (Co (S i) 0 0 0) * F (Co 0 (S j) 0 0) / nOverlap r.
Proof.
  intros Hi Hj Hne. edestruct (@val2a i j) as [st [E [H1 H2]]]; [exact Hi|exact Hj|reflexivity|].
  rewrite E. rewrite (proj2 (Nat.eqb_neq i j) Hne).
  rewrite (H1 i), (H1 j); auto using memb1_a000, memb1_0b00.
Qed.

Lemma val2b i k pre x e : (i < n)%nat -> (k < n)%nat -> At (loop2b r i k) pre x e ->
  exists st, F x = e st /\ (forall i' k', (i' < n)%nat -> In k' (keys (loop1 r i')) -> st k' = F k')
    /\ (forall i' j, (i' <= i)%nat -> (j < n)%nat -> st (Co (S i') (S j) 0 0) = F (Co (S i') (S j) 0 0))
    /\ (forall i' j, (i < i')%nat -> st (Co (S i') (S j) 0 0) = 0).
Proof.
  intros Hi Hk HA0.
  assert (HA : At (loop2 r i) (flat_map (loop2a r i) (axes r) ++ flat_map (loop2b r i) (seq 0 k) ++ pre) x e).
  { unfold loop2. apply At_app_r, At_app_l. unfold axes. apply At_flat_map; [exact Hk|]. exact HA0. }
  destruct (@val2 i _ _ _ Hi HA) as [st [E [H1 [H2 [H3 H4]]]]].
  exists st. split; [exact E|]. split; [exact H2|]. split.
  - intros i' j Hi' Hj. destruct (Nat.eq_dec i' i) as [->|Hne].
    + apply H1. rewrite keys_app, in_app_iff, in_keys_flat_map. left. exists j.
      rewrite axes_In, loop2a_keys. cbn. auto.
    + apply (H3 i'); [lia|]. rewrite loop2_In. left. eauto.
  - intros i' j Hi'. apply H4.
    + rewrite !keys_app, !in_app_iff, !in_keys_flat_map. intros [[y [Hy H]]|[[y [Hy H]]|H]].
      * rewrite loop2a_keys in H. cbn in H. clash.
      * rewrite loop2b_keys in H. cbn in H. clash.
      * assert (H' : In (Co (S i') (S j) 0 0) (keys (loop2b r i k))).
        { destruct HA0 as [post ->]. rewrite keys_app, in_app_iff. auto. }
        rewrite loop2b_keys in H'. cbn in H'. clear H. clash.
    + intros i'' Hi''. rewrite loop1_In. intros H. clash.
    + intros i'' Hi''. rewrite loop2_In. intros H. clash.
    + discriminate.
Qed.

Lemma v_a00k_diag i : (i < n)%nat -> F (Co (S i) 0 0 (S i)) =
  factor r i * computeSecondOrderSum (cl1 r i) (cl2 r i) (q1 r i) (q2 r i) / disp1 r i.
Proof.
  intros Hi. edestruct (@val2b i i) as [st [E H]]; [exact Hi|exact Hi| |exact E].
  unfold loop2b. rewrite Nat.eqb_refl. apply At_app_l, At_here.
Qed.
Lemma v_0b1k_diag i : (i < n)%nat -> F (Co 0 (S i) 1 (S i)) =
  factor r i * computeSecondOrderSum (cl2 r i) (cl1 r i) (q1 r i) (q2 r i) / disp2 r i.
Proof.
  intros Hi. edestruct (@val2b i i) as [st [E H]]; [exact Hi|exact Hi| |exact E].
  unfold loop2b. rewrite Nat.eqb_refl. apply At_app_l, At_cons, At_here.
Qed.
Lemma v_a00k_off i k : (i < n)%nat -> (k < n)%nat -> k <> i -> F (Co (S i) 0 0 (S k)) =
  F (Co (S i) 0 0 0) * F (Co (S k) 0 0 0) / (nOverlap r * disp1 r k).
Proof.
  intros Hi Hk Hne. edestruct (@val2b i k) as [st [E [H1 _]]]; [exact Hi|exact Hk| |rewrite E].
  - unfold loop2b. rewrite (proj2 (Nat.eqb_neq k i) Hne). apply At_app_l, At_here.
  - cbv beta. rewrite (H1 i), (H1 k); auto using memb1_a000.
Qed.
Lemma v_0b1k_off i k : (i < n)%nat -> (k < n)%nat -> k <> i -> F (Co 0 (S i) 1 (S k)) =
  F (Co 0 (S i) 0 0) * F (Co 0 (S k) 0 0) / (nOverlap r * disp2 r k).
Proof.
  intros Hi Hk Hne. edestruct (@val2b i k) as [st [E [H1 _]]]; [exact Hi|exact Hk| |rewrite E].
  - unfold loop2b. rewrite (proj2 (Nat.eqb_neq k i) Hne). apply At_app_l, At_cons, At_here.
  - cbv beta. rewrite (H1 i), (H1 k); auto using memb1_0b00.
Qed.
Lemma v_0b0k i k : (i < n)%nat -> (k < n)%nat -> F (Co 0 (S i) 0 (S k)) =
  if (i <? k)%nat then 0 else F (Co (S k) (S i) 0 0) / disp1 r k.
Proof.
  intros Hi Hk. edestruct (@val2b i k) as [st [E [H1 [H2 H3]]]]; [exact Hi|exact Hk| |rewrite E].
  - unfold loop2b. apply At_app_r, At_here.
  - cbv beta. destruct (i <? k)%nat eqn:L.
    + apply Nat.ltb_lt in L. rewrite (H3 k i L). lra.
    + apply Nat.ltb_ge in L. rewrite (H2 k i L Hi). reflexivity.
Qed.
Lemma v_a01k i k : (i < n)%nat -> (k < n)%nat -> F (Co (S i) 0 1 (S k)) =
  F (Co (S i) (S k) 0 0) / disp2 r k.
Proof.
  intros Hi Hk. edestruct (@val2b i k) as [st [E [H1 [H2 H3]]]]; [exact Hi|exact Hk| |rewrite E].
  - unfold loop2b. apply At_app_r, At_cons, At_here.
  - cbv beta. rewrite (H2 i k (le_n _) Hk). reflexivity.
Qed.

Lemma val2j i j pre x e : (i < n)%nat -> (j < n)%nat -> At (loop2j r i j) pre x e ->
  exists st, F x = e st /\ (forall i' k', (i' < n)%nat -> In k' (keys (loop1 r i')) -> st k' = F k')
    /\ (forall j', (j' < n)%nat -> st (Co (S i) (S j') 0 0) = F (Co (S i) (S j') 0 0))
    /\ (forall i' k' x', (i' <= i)%nat -> (k' < n)%nat -> In x' (keys (loop2b r i' k')) -> st x' = F x')
    /\ (forall i' k' x', (i < i')%nat -> In x' (keys (loop2b r i' k')) -> st x' = 0)
    /\ (forall x', (exists s k, x' = Co (S i) (S j) s (S k)) -> ~ In x' (keys pre) -> st x' = 0).
Proof.
  intros Hi Hj HA0.
  assert (HA : At (loop2 r i) (flat_map (loop2a r i) (axes r) ++ flat_map (loop2b r i) (axes r) ++
     flat_map (loop2j r i) (seq 0 j) ++ pre) x e).
  { unfold loop2. do 2 apply At_app_r. unfold axes. apply At_flat_map; [exact Hj|]. exact HA0. }
  destruct (@val2 i _ _ _ Hi HA) as [st [E [H1 [H2 [H3 H4]]]]].
  exists st. split; [exact E|]. split; [exact H2|]. split; [|split; [|split]].
  - intros j' Hj'. apply H1. rewrite keys_app, in_app_iff, in_keys_flat_map. left. exists j'.
    rewrite axes_In, loop2a_keys. cbn. auto.
  - intros i' k' x' Hi' Hk' H. destruct (Nat.eq_dec i' i) as [->|Hne].
    + apply H1. rewrite !keys_app, !in_app_iff, !in_keys_flat_map. right; left. exists k'.
      rewrite axes_In. auto.
    + apply (H3 i'); [lia|]. unfold loop2. rewrite !keys_app, !in_app_iff, !in_keys_flat_map.
      right; left. exists k'. rewrite axes_In. auto.
  - intros i' k' x' Hi' H. rewrite loop2b_keys in H. cbn in H. apply H4.
    + rewrite !keys_app, !in_app_iff, !in_keys_flat_map. intros [[y [Hy H0]]|[[y [Hy H0]]|[[y [Hy H0]]|H0]]].
      * rewrite loop2a_keys in H0. cbn in H0. clash.
      * rewrite loop2b_keys in H0. cbn in H0. clash.
      * rewrite loop2j_In in H0. clash.
      * assert (H' : In x' (keys (loop2j r i j))).
        { destruct HA0 as [post ->]. rewrite keys_app, in_app_iff. auto. }
        rewrite loop2j_In in H'. clear H0. clash.
    + intros i'' Hi''. rewrite loop1_In. intros H0. clash.
    + intros i'' Hi''. rewrite loop2_In. intros H0. clash.
    + intros ->. clash.
  - intros x' [s [k ->]] Hnp. apply H4.
    + rewrite !keys_app, !in_app_iff, !in_keys_flat_map. intros [[y [Hy H0]]|[[y [Hy H0]]|[[y [Hy H0]]|H0]]].
      * rewrite loop2a_keys in H0. cbn in H0. clash.
      * rewrite loop2b_keys in H0. cbn in H0. clash.
      * rewrite in_seq in Hy. rewrite loop2j_In in H0. clash.
      * contradiction.
    + intros i'' Hi''. rewrite loop1_In. intros H0. clash.
    + intros i'' Hi''. rewrite loop2_In. intros H0. clash.
    + discriminate.
Qed.

Lemma val2p i j p k : (i < n)%nat -> (j < n)%nat -> (p < 2)%nat -> (k < n)%nat -> validProd r p = true ->
  exists st e, loop2pk r i j p k = [(Co (S i) (S j) (p + 2) (S k), e)] /\
    F (Co (S i) (S j) (p + 2) (S k)) = e st /\
    (forall i' k', (i' < n)%nat -> In k' (keys (loop1 r i')) -> st k' = F k')
    /\ (forall j', (j' < n)%nat -> st (Co (S i) (S j') 0 0) = F (Co (S i) (S j') 0 0))
    /\ st (Co (S i) (S j) (p + 2) (S k)) = 0.
Proof.
  intros Hi Hj Hp Hk Hv.
  assert (HA : exists e, loop2pk r i j p k = [(Co (S i) (S j) (p + 2) (S k), e)] /\
    At (loop2j r i j)
     (flat_map (loop2p r i j) (seq 0 p) ++ flat_map (loop2pk r i j p) (seq 0 k) ++ [])
     (Co (S i) (S j) (p + 2) (S k)) e).
  { eexists. split; [reflexivity|].
    unfold loop2j. apply At_app_l. apply At_flat_map; [exact Hp|].
    unfold loop2p. rewrite Hv. unfold axes. apply At_flat_map; [exact Hk|]. apply At_here. }
  destruct HA as [e [Ee HA]].
  destruct (@val2j i j _ _ _ Hi Hj HA) as [st [E [H1 [H2 [H3 [H4 H5]]]]]].
  exists st, e. split; [exact Ee|]. split; [exact E|]. split; [exact H1|]. split; [exact H2|].
  apply H5; [eauto|]. rewrite app_nil_r, keys_app, in_app_iff, !in_keys_flat_map.
  intros [[y [Hy H0]]|[y [Hy H0]]]; rewrite in_seq in Hy.
  - rewrite loop2p_In in H0. clash.
  - rewrite loop2pk_keys in H0. cbn in H0. clash.
Qed.

Lemma v_abpk i j p k : (i < n)%nat -> (j < n)%nat -> (p < 2)%nat -> (k < n)%nat -> validProd r p = true ->
  F (Co (S i) (S j) (p + 2) (S k)) =
  if ((i =? j)%nat && (j =? k)%nat)%bool then
    factor r i * mixedThirdOrderSum (cl1 r i) (cl2 r i) (thisRR r p i) (otherRR r p i) / thisDisp r p k
  else if (j =? k)%nat then F (Co (S i) 0 0 0) * F (Co 0 (S j) (p + 2) (S k)) / nOverlap r
  else if (i =? k)%nat then F (Co 0 (S j) 0 0) * F (Co (S i) 0 (p + 2) (S k)) / nOverlap r
  else if (i =? j)%nat then F (Co 0 0 (p + 2) (S k)) * F (Co (S i) (S j) 0 0) / nOverlap r
  else F (Co (S i) 0 0 0) * F (Co 0 (S j) 0 0) * F (Co 0 0 (p + 2) (S k)) / (nOverlap r * nOverlap r).
Proof.
  intros Hi Hj Hp Hk Hv. destruct (@val2p i j p k Hi Hj Hp Hk Hv) as [st [e [Ee [E [H1 [H2 H3]]]]]].
  rewrite E. unfold loop2pk in Ee. injection Ee as <-.
  destruct ((i =? j)%nat && (j =? k)%nat)%bool.
  { rewrite H3. rewrite Rplus_0_l. reflexivity. }
  destruct (j =? k)%nat.
  { rewrite (H1 i), (H1 j); auto using memb1_a000, memb1_0bpk. }
  destruct (i =? k)%nat.
  { rewrite (H1 j), (H1 i); auto using memb1_0b00, memb1_a0pk. }
  destruct (i =? j)%nat.
  { rewrite (H1 k), (H2 j); auto using memb1_00pk. }
  rewrite (H1 i), (H1 j), (H1 k); auto using memb1_00pk, memb1_a000, memb1_0b00.
Qed.

Lemma v_abrk i j k : (i < n)%nat -> (j < n)%nat -> (k < n)%nat ->
  let f s := F (Co (S i) (S j) s (S k)) in
  if ((i =? j)%nat && (j =? k)%nat)%bool then
    f 0%nat = factor r i * computeThirdOrderSum (cl2 r i) (cl1 r i) (q1 r i) (q2 r i) / disp1 r i /\
    f 1%nat = factor r i * computeThirdOrderSum (cl1 r i) (cl2 r i) (q1 r i) (q2 r i) / disp2 r i
  else if (i =? k)%nat then
    f 0%nat = F (Co 0 (S j) 0 0) * F (Co (S i) 0 0 (S k)) / nOverlap r /\
    f 1%nat = F (Co 0 (S j) 0 0) * F (Co (S i) 0 1 (S k)) / nOverlap r
  else if (j =? k)%nat then
    f 0%nat = (if (i <? j)%nat then 0 else F (Co (S i) 0 0 0) * F (Co 0 (S j) 0 (S k)) / nOverlap r) /\
    f 1%nat = (if (i <? j)%nat then 0 else F (Co (S i) 0 0 0) * F (Co 0 (S j) 1 (S k)) / nOverlap r)
  else if (i =? j)%nat then
    f 0%nat = F (Co 0 0 0 (S k)) * F (Co (S i) (S j) 0 0) / nOverlap r /\
    f 1%nat = F (Co 0 0 1 (S k)) * F (Co (S i) (S j) 0 0) / nOverlap r
  else
    f 0%nat = F (Co (S i) 0 0 0) * F (Co 0 (S j) 0 0) * F (Co (S k) 0 0 0)
              / (nOverlap r * nOverlap r * disp1 r k) /\
    f 1%nat = F (Co (S i) 0 0 0) * F (Co 0 (S j) 0 0) * F (Co 0 (S k) 0 0)
              / (nOverlap r * nOverlap r * disp2 r k).
Proof.
  intros Hi Hj Hk f.
  assert (HA : exists ea eb,
    loop2rk r i j k = [(Co (S i) (S j) 0 (S k), ea); (Co (S i) (S j) 1 (S k), eb)]).
  { unfold loop2rk. destruct ((i =? j)%nat && (j =? k)%nat)%bool; [eauto|].
    destruct (i =? k)%nat; [eauto|]. destruct (j =? k)%nat; [eauto|]. destruct (i =? j)%nat; eauto. }
  destruct HA as [ea [eb Ek]].
  destruct (@val2j i j (flat_map (loop2p r i j) (seq 0 2) ++ flat_map (loop2rk r i j) (seq 0 k) ++ [])
     (Co (S i) (S j) 0 (S k)) ea Hi Hj) as [st [E [H1 [H2 [H3 [H4 _]]]]]].
  { unfold loop2j. apply At_app_r. unfold axes. apply At_flat_map; [exact Hk|]. rewrite Ek. apply At_here. }
  destruct (@val2j i j (flat_map (loop2p r i j) (seq 0 2) ++ flat_map (loop2rk r i j) (seq 0 k) ++
       [(Co (S i) (S j) 0 (S k), ea)])
     (Co (S i) (S j) 1 (S k)) eb Hi Hj) as [st' [E' [H1' [H2' [H3' [H4' _]]]]]].
  { unfold loop2j. apply At_app_r. unfold axes. apply At_flat_map; [exact Hk|]. rewrite Ek. apply At_cons, At_here. }
  unfold f. rewrite E, E'. clear f E E'.
  unfold loop2rk in Ek.
  destruct ((i =? j)%nat && (j =? k)%nat)%bool eqn:B0.
  { injection Ek as <- <-. auto. }
  destruct (i =? k)%nat eqn:B1.
  { injection Ek as <- <-. apply Nat.eqb_eq in B1. subst k. split.
    - rewrite (H1 j), (H3 i i); auto using memb1_0b00. rewrite loop2b_keys; cbn; auto.
    - rewrite (H1' j), (H3' i i); auto using memb1_0b00. rewrite loop2b_keys; cbn; auto. }
  destruct (j =? k)%nat eqn:B2.
  { injection Ek as <- <-. apply Nat.eqb_eq in B2. subst k. destruct (i <? j)%nat eqn:L.
    - apply Nat.ltb_lt in L. split.
      + rewrite (H4 j j (Co 0 (S j) 0 (S j)) L) by (rewrite loop2b_keys; cbn; auto). lra.
      + rewrite (H4' j j (Co 0 (S j) 1 (S j)) L) by (rewrite loop2b_keys; cbn; auto). lra.
    - apply Nat.ltb_ge in L. split.
      + rewrite (H1 i), (H3 j j); auto using memb1_a000. rewrite loop2b_keys; cbn; auto.
      + rewrite (H1' i), (H3' j j); auto using memb1_a000. rewrite loop2b_keys; cbn; auto. }
  destruct (i =? j)%nat eqn:B3.
  { injection Ek as <- <-. split.
    - rewrite (H1 k), (H2 j); auto using memb1_000k.
    - rewrite (H1' k), (H2' j); auto using memb1_001k. }
  injection Ek as <- <-. split.
  - rewrite (H1 i), (H1 j), (H1 k); auto using memb1_a000, memb1_0b00.
  - rewrite (H1' i), (H1' j), (H1' k (Co 0 (S k) 0 0)); auto using memb1_a000, memb1_0b00.
Qed.

End VAL.
