(** Conservation by transport, number of temperature contributions, value stream, mask. *)
From Verif Require Import Solver1DModel StencilProofs.
Open Scope R_scope.

(** ** Conservation *)
Section CONS.
Variables (grid : nat -> R) (nX : nat).
Hypothesis incr : forall i, grid i < grid (S i).
Notation hL := (hxLeft grid). Notation hR := (hxRight grid nX).
Lemma hL_pos xi : 0 < hL xi.
Proof using incr.
  unfold hxLeft. destruct (Nat.leb_spec 1 xi).
  - destruct xi as [|xi]; [lia|]. replace (S xi + 1)%nat with (S (S xi)) by lia. replace (S xi - 1)%nat with xi by lia.
    pose proof (incr xi). pose proof (incr (S xi)). lra.
  - replace (xi + 1)%nat with (S xi) by lia. pose proof (incr xi). lra.
Qed.
Lemma hR_pos xi : 0 < hR xi.
Proof using incr.
  unfold hxRight. replace (xi + 1)%nat with (S xi) by lia. replace (xi + 2)%nat with (S (S xi)) by lia.
  pose proof (incr xi). pose proof (incr (S xi)). destruct (Nat.ltb xi nX); lra.
Qed.
Lemma hR_hL xi : (xi < nX)%nat -> hR xi = hL (S xi).
Proof using.
  intros H. unfold hxRight, hxLeft. destruct (Nat.ltb_spec xi nX); [|lia]. cbn [Nat.leb].
  replace (S xi + 1)%nat with (xi + 2)%nat by lia. replace (S xi - 1)%nat with xi by lia. reflexivity.
Qed.
(** The weight which makes diffusion conservative. *)
Definition dualWidth (xi : nat) : R := (hL xi + hR xi) / 2.
Lemma diff_local D c xi :
  (1 <= xi)%nat -> (forall i, D i = D 0%nat) ->
  dualWidth xi * diffAt grid nX D (fun _ => 1) c xi =
  D 0%nat * ((c (S xi) - c xi) / hR xi - (c xi - c (xi - 1)%nat) / hL xi).
Proof using incr.
  intros Hx HD. unfold dualWidth, diffAt, diff1. cbn [hl hr Dl Dm Dr around].
  rewrite !(HD (xi - 1)%nat), !(HD xi), !(HD (xi + 1)%nat). pose proof (hL_pos xi). pose proof (hR_pos xi).
  replace (xi + 1)%nat with (S xi) by lia. field. repeat split; lra.
Qed.
(** Diffusion over the points a .. a+n: only the two ends matter. *)
Lemma diff_conserved D c a n :
  (1 <= a)%nat -> (a + n < nX)%nat -> (forall i, D i = D 0%nat) ->
  Rsum (seq a (S n)) (fun xi => dualWidth xi * diffAt grid nX D (fun _ => 1) c xi) =
  D 0%nat * ((c (S (a + n)) - c (a + n)%nat) / hR (a + n)%nat - (c a - c (a - 1)%nat) / hL a).
Proof using incr.
  intros Ha Hn HD. induction n as [|n IH].
  - cbn [seq Rsum]. rewrite diff_local by auto. replace (a + 0)%nat with a by lia. ring.
  - rewrite seq_S, Rsum_app. rewrite IH by lia. cbn [Rsum]. rewrite diff_local by (auto; lia).
    replace (a + S n)%nat with (S (a + n)) by lia. replace (S (a + n) - 1)%nat with (a + n)%nat by lia.
    rewrite <- (hR_hL (a + n)) by lia. ring.
Qed.
(** With the cell widths, when the widths grow linearly (uniform grids included). *)
Lemma cell_dual xi :
  (1 <= xi < nX)%nat -> cellWidth grid (xi - 1) + cellWidth grid (xi + 1) = 2 * cellWidth grid xi ->
  dualWidth xi = cellWidth grid xi.
Proof using.
  intros Hx. unfold dualWidth, hxLeft, hxRight, cellWidth.
  destruct (Nat.leb_spec 1 xi); [|lia]. destruct (Nat.ltb_spec xi nX); [|lia].
  replace (xi - 1 + 1)%nat with xi by lia. replace (xi + 1 + 1)%nat with (xi + 2)%nat by lia. lra.
Qed.
Lemma diff_conserved_cells D c a n :
  (1 <= a)%nat -> (a + n < nX)%nat -> (forall i, D i = D 0%nat) ->
  (forall xi, (a <= xi <= a + n)%nat -> cellWidth grid (xi - 1) + cellWidth grid (xi + 1) = 2 * cellWidth grid xi) ->
  Rsum (seq a (S n)) (fun xi => cellWidth grid xi * diffAt grid nX D (fun _ => 1) c xi) =
  D 0%nat * ((c (S (a + n)) - c (a + n)%nat) / hR (a + n)%nat - (c a - c (a - 1)%nat) / hL a).
Proof using incr.
  intros Ha Hn HD Hw. rewrite <- diff_conserved by auto. apply Rsum_ext. intros xi Hx. apply in_seq in Hx.
  rewrite cell_dual; [reflexivity|lia|]. apply Hw. lia.
Qed.

(** Advection towards the surface, constant temperature. *)
Lemma position_step xi : (xi < nX)%nat -> position grid xi + hR xi = position grid (S xi).
Proof using.
  intros H. unfold position, hxRight. destruct (Nat.ltb_spec xi nX); [|lia].
  replace (S xi + 1)%nat with (xi + 2)%nat by lia. replace (S xi) with (xi + 1)%nat by lia. lra.
Qed.
Lemma adv_conserved loc_ A D T c a n :
  (a + n < nX)%nat -> (forall i, D i = D 0%nat) -> (forall i, T i = T 0%nat) -> T 0%nat <> 0 ->
  (forall xi, (a <= xi)%nat -> loc_ < position grid xi) ->
  Rsum (seq a (S n)) (fun xi => hR xi * advAt grid nX loc_ A D T (fun _ => 1) c xi) =
  3 * A * D 0%nat / (kB * T 0%nat) *
  (c (S (a + n)) / (position grid (S (a + n)) - loc_) ^ 4 - c a / (position grid a - loc_) ^ 4).
Proof using incr.
  intros Hn HD HT HT0 Hp. pose proof kB_pos as HK.
  assert (E : forall xi, (a <= xi < nX)%nat -> hR xi * advAt grid nX loc_ A D T (fun _ => 1) c xi =
     3 * A * D 0%nat / (kB * T 0%nat) * (c (S xi) / (position grid (S xi) - loc_) ^ 4 - c xi / (position grid xi - loc_) ^ 4)).
  { intros xi Hx. unfold advAt, advS. cbn [pos location strength aD aT aDr aTr ah2 around].
    rewrite !(HD xi), !(HD (xi + 1)%nat), !(HT xi), !(HT (xi + 1)%nat).
    rewrite <- (position_step xi) by lia. replace (xi + 1)%nat with (S xi) by lia.
    pose proof (Hp xi ltac:(lia)) as H1. pose proof (hR_pos xi) as H2. unfold pow. field. repeat split; lra. }
  induction n as [|n IH].
  - cbn [seq Rsum]. rewrite E by lia. replace (a + 0)%nat with a by lia. ring.
  - rewrite seq_S, Rsum_app, IH by lia. cbn [Rsum]. rewrite E by lia. replace (a + S n)%nat with (S (a + n)) by lia. ring.
Qed.
End CONS.

(** ** Temperature contributions *)
Lemma tempCalls_le nX lo ro gb rob xi :
  (1 <= lo)%nat -> (1 <= ro)%nat \/ rob = false -> (xi < nX)%nat -> (tempCalls nX lo ro gb rob xi <= 1)%nat.
Proof.
  intros Hl Hr Hx. unfold tempCalls, heatCondition, skipped.
  destruct (Nat.eqb_spec xi 0).
  - destruct (Nat.ltb_spec xi lo); [|lia]. cbn. lia.
  - destruct (Nat.eqb_spec xi (nX - 1)); cbn [andb orb]; [|destruct (_ || _ || _)%bool; lia].
    destruct rob; cbn [andb orb]; [|destruct (_ || _ || _)%bool; lia].
    destruct Hr as [Hr|Hr]; [|discriminate].
    destruct (Nat.ltb_spec (nX - 1 - ro) xi); [|lia]. rewrite Bool.orb_true_r. cbn [orb]. lia.
Qed.

(** ** The value stream *)
Lemma labEq_spec a b : labEq a b = true <-> a = b.
Proof.
  destruct a as [[a1 a2] [a3 a4]], b as [[b1 b2] [b3 b4]]. unfold labEq. cbn [fst snd].
  rewrite !Bool.andb_true_iff, !Z.eqb_eq, !Nat.eqb_eq. split; [intros [[[-> ->] ->] ->]; reflexivity|].
  intros [= -> -> -> ->]. auto.
Qed.
(** Correct labels make the assembled matrix the sum of the computed contributions. *)
Lemma assembled_spec cs (ws : list ((nat * label) * R)) e :
  (forall w, In w ws -> nth_error cs (fst (fst w)) = Some (Some (snd (fst w)))) ->
  assembled cs ws e = Rsum ws (fun w => if labEq (snd (fst w)) e then snd w else 0).
Proof.
  intros H. unfold assembled, valueAt.
  etransitivity.
  { apply (Rsum_ext _ _ (fun k => Rsum ws (fun w => match nth k cs None with Some l => if labEq l e then (if Nat.eqb (fst (fst w)) k then snd w else 0) else 0 | None => 0 end))).
    intros k _. destruct (nth k cs None) as [l|]; [destruct (labEq l e)|]; auto; symmetry; apply Rsum_0. }
  rewrite Rsum_swap. apply Rsum_ext. intros w Hw. specialize (H w Hw).
  assert (Hlt : (fst (fst w) < length cs)%nat) by (apply nth_error_Some; congruence).
  rewrite (@Rsum_single _ _ _ (fst (fst w))).
  - apply nth_error_nth with (d := None) in H. rewrite H, Nat.eqb_refl. reflexivity.
  - apply seq_NoDup.
  - apply in_seq. lia.
  - intros k _ Hk. destruct (nth k cs None) as [l|]; [|reflexivity]. destruct (labEq l e); [|reflexivity].
    destruct (Nat.eqb_spec (fst (fst w)) k); congruence.
Qed.

(** [holds cs k l]: the list [l] stands in [cs] from position [k] on. *)
Definition stands (cs : list (option label)) (ws : list (nat * label)) : Prop :=
  forall w, In w ws -> nth_error cs (fst w) = Some (Some (snd w)).
Lemma stands_app cs a b : stands cs a -> stands cs b -> stands cs (a ++ b).
Proof. intros Ha Hb w Hw. apply in_app_or in Hw. destruct Hw; auto. Qed.
Lemma stands_combine pre l post : stands (pre ++ map Some l ++ post) (combine (seq (length pre) (length l)) l).
Proof.
  revert pre. induction l as [|x l IH]; intros pre w Hw; [destruct Hw|].
  cbn [length seq combine] in Hw. destruct Hw as [<-|Hw].
  - cbn [fst snd]. rewrite nth_error_app2, Nat.sub_diag by lia. reflexivity.
  - specialize (IH (pre ++ [Some x])). rewrite app_length in IH. cbn [length] in IH. rewrite Nat.add_comm in IH.
    specialize (IH w Hw). rewrite <- app_assoc in IH. exact IH.
Qed.
Lemma stands_placeAll vs : forall pre post,
  (forall n l, In (n, l) vs -> n = length l) ->
  stands (pre ++ map Some (concat (map snd vs)) ++ post) (placeAll (length pre) vs).
Proof.
  induction vs as [|[n l] vs IH]; intros pre post Hn; [intros w []|].
  cbn [placeAll map concat snd]. apply stands_app.
  - rewrite map_app, <- app_assoc. apply stands_combine.
  - rewrite (Hn n l) by (left; reflexivity).
    replace (length pre + length l)%nat with (length (pre ++ map Some l)) by (rewrite app_length, map_length; reflexivity).
    rewrite map_app. specialize (IH (pre ++ map Some l) post). rewrite <- !app_assoc in *. apply IH.
    intros n' l' H. apply Hn. right. exact H.
Qed.

Section STREAM.
Variables (nX lo ro : nat) (gb : list nat) (soretEnts difEnts nwEnts : list (nat * nat)) (handlers : list advHandler) (dof xs xm : nat).
Notation nA := (nAdvec handlers).
Notation at_ := (coordsAt soretEnts difEnts nwEnts handlers).
Notation subs := (subviews soretEnts difEnts nwEnts handlers).
Notation bs := (blockSize soretEnts difEnts nwEnts handlers).
Hypothesis same : forall h, In h handlers -> length (ents h) = nA.

Lemma len_triples xi (l : list (nat * nat)) : length (flat_map (triple xi) l) = (3 * length l)%nat.
Proof using. induction l as [|x l IH]; [reflexivity|]. cbn [flat_map]. rewrite app_length, IH. cbn [triple length]. lia. Qed.
Lemma len_pairs h xi (l : list (nat * nat)) : length (flat_map (advPair h xi) l) = (2 * length l)%nat.
Proof using.
  induction l as [|x l IH]; [reflexivity|]. cbn [flat_map]. rewrite app_length, IH. unfold advPair. destruct (onsink h xi); cbn [length]; lia.
Qed.
Lemma subs_len xi n l : In (n, l) (subs xi) -> n = length l.
Proof using same.
  unfold subviews. intros [E|[E|H]]; [inversion E; symmetry; apply len_triples ..|].
  apply in_app_or in H. destruct H as [H|[E|[]]].
  - apply in_map_iff in H. destruct H as [h [E Hh]]. inversion E. rewrite len_pairs, same by auto. reflexivity.
  - inversion E. rewrite map_length. reflexivity.
Qed.
Lemma at_subs xi : at_ xi = map Some (concat (map snd (subs xi))).
Proof using same.
  unfold coordsAt, subviews. cbn [map snd concat]. rewrite !map_app, !concat_app, !map_app. f_equal. f_equal. f_equal.
  - assert (Hp : forall h, In h handlers -> padding handlers h = []).
    { intros h Hh. unfold padding. rewrite (same h Hh), Nat.sub_diag. reflexivity. }
    clear same. revert Hp. generalize (padding handlers) nA. intros pad n.
    induction handlers as [|h hs IH]; intros Hp; [reflexivity|].
    cbn [flat_map map snd concat]. rewrite map_app, <- IH by (intros h' Hh'; apply Hp; right; auto).
    rewrite (Hp h) by (left; reflexivity). rewrite app_nil_r. reflexivity.
  - cbn [map snd concat]. rewrite app_nil_r. reflexivity.
Qed.
Lemma fold_sum (l : list (nat * list label)) v :
  (forall n x, In (n, x) l -> n = length x) ->
  fold_left (fun v nl => v + fst nl)%nat l v = (v + length (concat (map snd l)))%nat.
Proof using.
  revert v. induction l as [|[n x] l IH]; intros v H; cbn [fold_left map snd concat fst length]; [lia|].
  rewrite IH by (intros; apply H; right; auto). rewrite app_length, (H n x) by (left; auto). lia.
Qed.
Lemma len_at xi : length (at_ xi) = bs.
Proof using same.
  rewrite at_subs, map_length. unfold blockSize, subviews. cbn [map snd concat].
  rewrite !app_length, !len_triples, map_app, concat_app, app_length. cbn [map snd concat]. rewrite app_nil_r, map_length.
  assert (E : length (concat (map snd (map (fun h => ((2 * nA)%nat, flat_map (advPair h xi) (ents h))) handlers))) = (2 * nA * length handlers)%nat).
  { clear - same. revert same. generalize nA. intros n. induction handlers as [|h hs IH]; intros same; cbn [map snd concat length]; [lia|].
    rewrite app_length, len_pairs, IH by (intros; apply same; right; auto). rewrite same by (left; auto). lia. }
  lia.
Qed.
(** From some position on the coordinates and the writes agree. *)
Lemma stands_writesFrom pts : forall pre post,
  (forall xi, In xi pts -> skipped nX lo ro gb xi = false -> xi <> 0%nat) ->
  stands (pre ++ flat_map at_ pts ++ post)
    (writesFrom nX lo ro gb soretEnts difEnts nwEnts handlers (length pre) pts).
Proof using same.
  induction pts as [|xi pts IH]; intros pre post H; [intros w []|].
  cbn [writesFrom flat_map].
  assert (Hnext : forall ws, stands ((pre ++ at_ xi) ++ flat_map at_ pts ++ post) ws ->
                             stands (pre ++ (at_ xi ++ flat_map at_ pts) ++ post) ws).
  { intros ws. rewrite <- !app_assoc. auto. }
  assert (Hl : (length pre + bs)%nat = length (pre ++ at_ xi)) by (rewrite app_length, len_at; reflexivity).
  destruct (skipped nX lo ro gb xi) eqn:Es.
  - apply Hnext. rewrite Hl. apply IH. intros; apply H; auto; right; auto.
  - destruct (Nat.eqb_spec xi 0) as [E0|E0]; [exfalso; revert E0; apply H; auto; left; auto|].
    apply stands_app.
    + rewrite at_subs, <- app_assoc. apply stands_placeAll. apply subs_len.
    + apply Hnext. rewrite fold_sum by apply subs_len.
      replace (length pre + length (concat (map snd (subs xi))))%nat with (length (pre ++ at_ xi))
        by (rewrite app_length, at_subs, map_length; reflexivity).
      apply IH. intros; apply H; auto; right; auto.
Qed.
Lemma len_flat_triples (f : nat -> nat * nat) pts : length (flat_map (fun xi => triple xi (f xi)) pts) = (3 * length pts)%nat.
Proof using. induction pts as [|x l IH]; [reflexivity|]. cbn [flat_map]. rewrite app_length, IH. cbn [triple length]. lia. Qed.
Lemma map_flat_map {A B C} (g : B -> C) (f : A -> list B) l : map g (flat_map f l) = flat_map (fun x => map g (f x)) l.
Proof using. induction l; [reflexivity|]. cbn [flat_map]. rewrite map_app, IHl. reflexivity. Qed.
Lemma stands_writes :
  (forall xi, In xi (points xs xm) -> skipped nX lo ro gb xi = false -> xi <> 0%nat) ->
  stands (coords soretEnts difEnts nwEnts handlers dof xs xm)
         (writes nX lo ro gb soretEnts difEnts nwEnts handlers dof xs xm).
Proof using same.
  intros H. unfold writes, coords, tempWrites.
  assert (E : (3 * xm)%nat = length (flat_map (fun xi => triple xi (dof, dof)) (points xs xm))).
  { rewrite (len_flat_triples (fun _ => (dof, dof))). unfold points. rewrite seq_length. reflexivity. }
  rewrite <- map_flat_map. apply stands_app.
  - rewrite E. apply (@stands_combine [] _ _).
  - replace (3 * xm)%nat with (length (map Some (flat_map (fun xi => triple xi (dof, dof)) (points xs xm)))) by (rewrite map_length; auto).
    rewrite <- (app_nil_r (flat_map at_ _)). apply stands_writesFrom. exact H.
Qed.
End STREAM.
