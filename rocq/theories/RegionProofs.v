From Verif Require Export MathProofs RegionSpec.

Lemma pts_In v x : In x (pts v) <-> (ib v <= x < ie v)%Z.
Proof. unfold pts. rewrite zlist_In. lia. Qed.

Lemma msum_ext c1 c2 c3 c4 w w' :
  (forall n l s m, In n (pts c1) -> In l (pts c2) -> In s (pts c3) -> In m (pts c4) ->
     (n + l = s + m)%Z -> w n l s m = w' n l s m) ->
  msum c1 c2 c3 c4 w = msum c1 c2 c3 c4 w'.
Proof.
  intros H. unfold msum.
  apply Rsum_ext; intros n Hn. apply Rsum_ext; intros l Hl.
  apply Rsum_ext; intros s Hs. apply Rsum_ext; intros m Hm.
  destruct (Z.eqb_spec (n + l) (s + m)); auto.
Qed.

Lemma msum_plus c1 c2 c3 c4 w w' :
  msum c1 c2 c3 c4 (fun n l s m => w n l s m + w' n l s m)
  = msum c1 c2 c3 c4 w + msum c1 c2 c3 c4 w'.
Proof.
  unfold msum. rewrite <- Rsum_plus. apply Rsum_ext; intros n _.
  rewrite <- Rsum_plus. apply Rsum_ext; intros l _.
  rewrite <- Rsum_plus. apply Rsum_ext; intros s _.
  rewrite <- Rsum_plus. apply Rsum_ext; intros m _.
  destruct (n + l =? s + m)%Z; lra.
Qed.

Lemma msum_scal c1 c2 c3 c4 w a :
  msum c1 c2 c3 c4 (fun n l s m => a * w n l s m) = a * msum c1 c2 c3 c4 w.
Proof.
  unfold msum. rewrite <- Rsum_scal. apply Rsum_ext; intros n _.
  rewrite <- Rsum_scal. apply Rsum_ext; intros l _.
  rewrite <- Rsum_scal. apply Rsum_ext; intros s _.
  rewrite <- Rsum_scal. apply Rsum_ext; intros m _.
  destruct (n + l =? s + m)%Z; lra.
Qed.

Lemma msum_opp c1 c2 c3 c4 w :
  msum c1 c2 c3 c4 (fun n l s m => - w n l s m) = - msum c1 c2 c3 c4 w.
Proof.
  transitivity (msum c1 c2 c3 c4 (fun n l s m => (-1) * w n l s m)).
  - apply msum_ext. intros; lra.
  - rewrite msum_scal. lra.
Qed.

(** Symmetries of the balance equation. *)
Lemma msum_swap12 c1 c2 c3 c4 w :
  msum c1 c2 c3 c4 w = msum c2 c1 c3 c4 (fun l n s m => w n l s m).
Proof.
  unfold msum. rewrite Rsum_swap.
  apply Rsum_ext; intros l _. apply Rsum_ext; intros n _.
  apply Rsum_ext; intros s _. apply Rsum_ext; intros m _.
  rewrite (Z.add_comm l n). reflexivity.
Qed.

Lemma msum_swap34 c1 c2 c3 c4 w :
  msum c1 c2 c3 c4 w = msum c1 c2 c4 c3 (fun n l m s => w n l s m).
Proof.
  unfold msum. apply Rsum_ext; intros n _. apply Rsum_ext; intros l _.
  rewrite Rsum_swap. apply Rsum_ext; intros m _. apply Rsum_ext; intros s _.
  rewrite (Z.add_comm m s). reflexivity.
Qed.

Lemma msum_swap_pairs c1 c2 c3 c4 w :
  msum c1 c2 c3 c4 w = msum c3 c4 c1 c2 (fun s m n l => w n l s m).
Proof.
  unfold msum.
  transitivity (Rsum (pts c1) (fun n => Rsum (pts c3) (fun s => Rsum (pts c4) (fun m =>
      Rsum (pts c2) (fun l => if (n + l =? s + m)%Z then w n l s m else 0))))).
  - apply Rsum_ext; intros n _. rewrite Rsum_swap. apply Rsum_ext; intros s _.
    apply Rsum_swap.
  - rewrite Rsum_swap. apply Rsum_ext; intros s _. rewrite Rsum_swap.
    apply Rsum_ext; intros m _. apply Rsum_ext; intros n _. apply Rsum_ext; intros l _.
    rewrite (Z.eqb_sym (n + l)). reflexivity.
Qed.

(** The clipped double loop of the code is the balanced sum. *)
Lemma clip_msum c1 c2 c3 c4 (g : Z -> Z -> Z -> R) :
  Rsum (pts c4) (fun m => Rsum (pts c2) (fun l =>
    Rsum (zlist (Z.max (ib c3 + m - l) (ib c1)) (Z.min (ie c3 - 1 + m - l) (ie c1 - 1)))
      (fun n => g n l m)))
  = msum c1 c2 c3 c4 (fun n l s m => g n l m).
Proof.
  unfold msum.
  transitivity (Rsum (pts c4) (fun m => Rsum (pts c2) (fun l => Rsum (pts c1) (fun n =>
     Rsum (pts c3) (fun s => if (n + l =? s + m)%Z then g n l m else 0))))).
  - apply Rsum_ext; intros m _. apply Rsum_ext; intros l _.
    rewrite (Z.max_comm (ib c3 + m - l)), (Z.min_comm (ie c3 - 1 + m - l)).
    rewrite <- Rsum_clip. apply Rsum_ext; intros n _.
    unfold pts at 1.
    rewrite (@Rsum_ext _ (zlist (ib c3) (ie c3 - 1)) _
      (fun s => if (s =? n + l - m)%Z then g n l m else 0)).
    + rewrite Rsum_point.
      replace (ib c3 + m - l <=? n)%Z with (ib c3 <=? n + l - m)%Z
        by (destruct (Z.leb_spec (ib c3) (n + l - m)), (Z.leb_spec (ib c3 + m - l) n); lia).
      replace (n <=? ie c3 - 1 + m - l)%Z with (n + l - m <=? ie c3 - 1)%Z
        by (destruct (Z.leb_spec (n + l - m) (ie c3 - 1)), (Z.leb_spec n (ie c3 - 1 + m - l)); lia).
      reflexivity.
    + intros s _. destruct (Z.eqb_spec (n + l) (s + m)), (Z.eqb_spec s (n + l - m)); auto; lia.
  - transitivity (Rsum (pts c2) (fun l => Rsum (pts c1) (fun n => Rsum (pts c4) (fun m =>
       Rsum (pts c3) (fun s => if (n + l =? s + m)%Z then g n l m else 0))))).
    + rewrite Rsum_swap. apply Rsum_ext; intros l _. apply Rsum_swap.
    + rewrite Rsum_swap. apply Rsum_ext; intros n _. apply Rsum_ext; intros l _.
      apply Rsum_swap.
Qed.

Lemma computeFirstOrderSum_spec c1 c2 c3 c4 :
  computeFirstOrderSum c1 c2 c3 c4
  = msum c1 c2 c3 c4 (fun n l s m => IZR n - imean c1).
Proof.
  unfold computeFirstOrderSum.
  rewrite <- (@clip_msum c1 c2 c3 c4 (fun n _ _ => IZR n - imean c1)).
  apply Rsum_ext; intros m _. apply Rsum_ext; intros l _. apply firstOrderSum_spec.
Qed.

Lemma computeSecondOrderSum_spec c1 c2 c3 c4 :
  computeSecondOrderSum c1 c2 c3 c4
  = msum c1 c2 c3 c4 (fun n l s m => (IZR n - imean c1) * (IZR n - imean c1)).
Proof.
  unfold computeSecondOrderSum.
  rewrite <- (@clip_msum c1 c2 c3 c4 (fun n _ _ => (IZR n - imean c1) * (IZR n - imean c1))).
  apply Rsum_ext; intros m _. apply Rsum_ext; intros l _. apply secondOrderSum_spec.
Qed.

Lemma computeSecondOrderOffsetSum_spec c1 c2 c3 c4 :
  computeSecondOrderOffsetSum c1 c2 c3 c4
  = msum c1 c2 c3 c4 (fun n l s m => (IZR n - imean c1) * (IZR s - imean c3)).
Proof.
  unfold computeSecondOrderOffsetSum.
  transitivity (msum c1 c2 c3 c4
     (fun n l s m => (IZR n - imean c1) * (IZR n + IZR (l - m) - imean c3))).
  - rewrite <- (@clip_msum c1 c2 c3 c4
      (fun n l m => (IZR n - imean c1) * (IZR n + IZR (l - m) - imean c3))).
    apply Rsum_ext; intros m _. apply Rsum_ext; intros l _. apply secondOrderOffsetSum_spec.
  - apply msum_ext. intros n l s m _ _ _ _ H.
    rewrite <- plus_IZR. replace (n + (l - m))%Z with s by lia. reflexivity.
Qed.

Lemma computeThirdOrderSum_spec c1 c2 c3 c4 :
  computeThirdOrderSum c1 c2 c3 c4
  = msum c1 c2 c3 c4
      (fun n l s m => (IZR l - imean c2) * (IZR l - imean c2) * (IZR n - imean c1)).
Proof.
  unfold computeThirdOrderSum.
  rewrite <- (@clip_msum c1 c2 c3 c4
     (fun n l _ => (IZR l - imean c2) * (IZR l - imean c2) * (IZR n - imean c1))).
  apply Rsum_ext; intros m _. apply Rsum_ext; intros l _.
  rewrite firstOrderSum_spec, <- Rsum_scal. reflexivity.
Qed.

Lemma mixedSecondOrderSum_spec c1 c2 c3 c4 :
  mixedSecondOrderSum c1 c2 c3 c4
  = msum c1 c2 c3 c4 (fun n l s m => (IZR n - imean c1) * (IZR l - imean c2)).
Proof.
  unfold mixedSecondOrderSum. rewrite msum_swap12.
  rewrite <- (@clip_msum c2 c1 c3 c4 (fun l n _ => (IZR n - imean c1) * (IZR l - imean c2))).
  apply Rsum_ext; intros m _. apply Rsum_ext; intros l _.
  rewrite firstOrderSum_spec, <- Rsum_scal. reflexivity.
Qed.

Lemma mixedThirdOrderSum_spec c1 c2 c3 c4 :
  mixedThirdOrderSum c1 c2 c3 c4
  = msum c1 c2 c3 c4 (fun n l s m =>
      (IZR n - imean c1) * (IZR l - imean c2) * (IZR s - imean c3)).
Proof.
  unfold mixedThirdOrderSum. rewrite msum_swap12.
  transitivity (msum c2 c1 c3 c4 (fun l n s m =>
     (IZR n - imean c1) * ((IZR l - imean c2) * (IZR l + IZR (n - m) - imean c3)))).
  - rewrite <- (@clip_msum c2 c1 c3 c4 (fun l n m =>
      (IZR n - imean c1) * ((IZR l - imean c2) * (IZR l + IZR (n - m) - imean c3)))).
    apply Rsum_ext; intros m _. apply Rsum_ext; intros l _.
    rewrite secondOrderOffsetSum_spec, <- Rsum_scal. reflexivity.
  - apply msum_ext. intros l n s m _ _ _ _ H. rewrite <- plus_IZR.
    replace (l + (n - m))%Z with s by lia. lra.
Qed.

Lemma overlapWidth_msum c1 c2 c3 c4 :
  overlapWidth c1 c2 c3 c4 = msum c1 c2 c3 c4 (fun _ _ _ _ => 1).
Proof.
  unfold overlapWidth. rewrite <- (@clip_msum c1 c2 c3 c4 (fun _ _ _ => 1)).
  apply Rsum_ext; intros m _. apply Rsum_ext; intros l _.
  rewrite Rsum_ones. rewrite <- (plus_IZR _ 1).
  unfold Rmax. destruct (Rle_dec 0 _) as [H|H].
  - apply (le_IZR 0) in H. f_equal. lia.
  - assert (Hn : ~ (0 <= Z.min (ie c1 - 1 + l) (ie c3 - 1 + m) -
       Z.max (ib c1 + l) (ib c3 + m) + 1)%Z).
    { intros Hc. apply H. apply (IZR_le 0). exact Hc. }
    rewrite Z.max_l by lia. reflexivity.
Qed.

Lemma Rsum_list_prod A B (l1 : list A) (l2 : list B) (f : A * B -> R) :
  Rsum (list_prod l1 l2) f = Rsum l1 (fun x => Rsum l2 (fun y => f (x, y))).
Proof.
  induction l1 as [|x t IH]; simpl; [reflexivity|].
  rewrite Rsum_app, IH, Rsum_map. reflexivity.
Qed.

Lemma msum_balanced c1 c2 c3 c4 w :
  msum c1 c2 c3 c4 w = Rsum (balanced c1 c2 c3 c4) (fun '(n, l, s, m) => w n l s m).
Proof.
  unfold balanced. rewrite Rsum_filter. rewrite !Rsum_list_prod. unfold msum.
  apply Rsum_ext; intros n _. apply Rsum_ext; intros l _. apply Rsum_ext; intros s _.
  apply Rsum_ext; intros m _. reflexivity.
Qed.

Lemma balanced_In c1 c2 c3 c4 n l s m :
  In (n, l, s, m) (balanced c1 c2 c3 c4) <->
  (In n (pts c1) /\ In l (pts c2) /\ In s (pts c3) /\ In m (pts c4) /\ (n + l = s + m)%Z).
Proof.
  unfold balanced. rewrite filter_In, !in_prod_iff, Z.eqb_eq. tauto.
Qed.

Lemma NoDup_app_intro A (l1 l2 : list A) :
  NoDup l1 -> NoDup l2 -> (forall x, In x l1 -> ~ In x l2) -> NoDup (l1 ++ l2).
Proof.
  induction l1 as [|x t IH]; simpl; intros H1 H2 Hd; [assumption|].
  inversion H1; subst. constructor.
  - rewrite in_app_iff. intros [H|H]; [contradiction|]. exact (Hd x (or_introl eq_refl) H).
  - apply IH; auto.
Qed.

Lemma list_prod_NoDup A B (l1 : list A) (l2 : list B) :
  NoDup l1 -> NoDup l2 -> NoDup (list_prod l1 l2).
Proof.
  induction l1 as [|x t IH]; simpl; intros H1 H2; [constructor|].
  inversion H1 as [|? ? Hx Ht]; subst. apply NoDup_app_intro.
  - apply FinFun.Injective_map_NoDup; [|assumption]. intros a b E; congruence.
  - auto.
  - intros [a b] Hq Hq'. apply in_map_iff in Hq. destruct Hq as [y [E Hy]].
    apply in_prod_iff in Hq'. destruct Hq' as [Ha _]. inversion E; subst. contradiction.
Qed.

Lemma balanced_NoDup c1 c2 c3 c4 : NoDup (balanced c1 c2 c3 c4).
Proof.
  unfold balanced. apply NoDup_filter.
  repeat apply list_prod_NoDup; apply zlist_NoDup.
Qed.

Lemma overlapWidth_count c1 c2 c3 c4 :
  overlapWidth c1 c2 c3 c4 = INR (length (balanced c1 c2 c3 c4)).
Proof.
  rewrite overlapWidth_msum, msum_balanced.
  rewrite (@Rsum_ext _ _ _ (fun _ => 1)).
  - rewrite Rsum_const. lra.
  - intros [[[n l] s] m] _. reflexivity.
Qed.

Lemma overlapWidth_nonneg c1 c2 c3 c4 : 0 <= overlapWidth c1 c2 c3 c4.
Proof. rewrite overlapWidth_count. apply pos_INR. Qed.

Lemma overlapWidth_pos c1 c2 c3 c4 :
  0 < overlapWidth c1 c2 c3 c4 <->
  exists n l s m, (In n (pts c1) /\ In l (pts c2) /\ In s (pts c3) /\ In m (pts c4)
                   /\ (n + l = s + m)%Z).
Proof.
  rewrite overlapWidth_count. split.
  - intros H. apply (INR_lt 0) in H.
    destruct (balanced c1 c2 c3 c4) as [|[[[n l] s] m] t] eqn:E; [simpl in H; lia|].
    exists n, l, s, m. apply balanced_In. rewrite E. left. reflexivity.
  - intros (n & l & s & m & H). apply balanced_In in H.
    apply (lt_INR 0). destruct (balanced c1 c2 c3 c4); [contradiction|simpl; lia].
Qed.

(** ** Reflection *)
Lemma reflectOne_spec onI i v x :
  (ib i < ie i)%Z -> (ib v < ie v)%Z ->
  In x (pts (reflectOne onI i v)) <->
  exists a b, In a (pts i) /\ In b (pts v) /\ x = (if onI then a - b else b - a)%Z.
Proof.
  intros Hi Hv. unfold reflectOne. destruct onI; rewrite pts_In; cbn [ib ie]; split.
  - intros H.
    exists (Z.max (ib i) (x + ib v)), (Z.max (ib i) (x + ib v) - x)%Z.
    rewrite !pts_In. lia.
  - intros (a & b & Ha & Hb & ->). rewrite pts_In in *. lia.
  - intros H.
    exists (Z.max (ib v) (x + ib i) - x)%Z, (Z.max (ib v) (x + ib i)).
    rewrite !pts_In. lia.
  - intros (a & b & Ha & Hb & ->). rewrite pts_In in *. lia.
Qed.

Lemma reflectOne_len onI i v :
  ilen (reflectOne onI i v) = (ilen i + ilen v - 1)%Z.
Proof. unfold reflectOne, ilen. destruct onI; cbn [ib ie]; lia. Qed.

Lemma reflectTwo_V_spec i v b x :
  (ib i < ie i)%Z -> (ib v < ie v)%Z -> (ib b < ie b)%Z ->
  In x (pts (reflectTwo false i v b)) <->
  exists p q r, In p (pts i) /\ In q (pts v) /\ In r (pts b) /\ x = (q + r - p)%Z.
Proof.
  intros Hi Hv Hb. unfold reflectTwo. rewrite pts_In; cbn [ib ie]; split.
  - intros H.
    (* pick q, r greedily *)
    set (q := Z.max (ib v) (Z.min (ie v - 1) (x + ib i - ib b))).
    set (r := Z.max (ib b) (Z.min (ie b - 1) (x + ib i - q))).
    exists (q + r - x)%Z, q, r. rewrite !pts_In. subst q r. lia.
  - intros (p & q & r & Hp & Hq & Hr & ->). rewrite pts_In in *. lia.
Qed.

Lemma reflectTwo_I_spec i v b x :
  (ib i < ie i)%Z -> (ib v < ie v)%Z -> (ib b < ie b)%Z ->
  In x (pts (reflectTwo true i v b)) <->
  exists p q r, In p (pts i) /\ In q (pts v) /\ In r (pts b) /\ x = (p - q - r)%Z.
Proof.
  intros Hi Hv Hb. unfold reflectTwo. rewrite pts_In; cbn [ib ie]; split.
  - intros H.
    set (q := Z.max (ib v) (Z.min (ie v - 1) (ib i - x - ib b))).
    set (r := Z.max (ib b) (Z.min (ie b - 1) (ib i - x - q))).
    exists (x + q + r)%Z, q, r. rewrite !pts_In. subst q r. lia.
  - intros (p & q & r & Hp & Hq & Hr & ->). rewrite pts_In in *. lia.
Qed.

Lemma reflectSix_spec onI i p f v o a x :
  (ib i < ie i)%Z -> (ib p < ie p)%Z -> (ib f < ie f)%Z ->
  (ib v < ie v)%Z -> (ib o < ie o)%Z -> (ib a < ie a)%Z ->
  In x (pts (reflectSix onI i p f v o a)) <->
  exists xi xp xf xv xo xa,
    In xi (pts i) /\ In xp (pts p) /\ In xf (pts f) /\
    In xv (pts v) /\ In xo (pts o) /\ In xa (pts a) /\
    x = (if onI then xi + xp + xf - (xv + xo + xa) else xv + xo + xa - (xi + xp + xf))%Z.
Proof.
  intros Hi Hp Hf Hv Ho Ha. unfold reflectSix. destruct onI; rewrite pts_In; cbn [ib ie]; split.
  - intros H.
    set (t := Z.max (ib v + ib o + ib a) (ib i + ib p + ib f - x)%Z).
    set (xv := Z.max (ib v) (Z.min (ie v - 1) (t - ib o - ib a))).
    set (xo := Z.max (ib o) (Z.min (ie o - 1) (t - xv - ib a))).
    set (xa := (t - xv - xo)%Z).
    set (u := (x + t)%Z).
    set (xi := Z.max (ib i) (Z.min (ie i - 1) (u - ib p - ib f))).
    set (xp := Z.max (ib p) (Z.min (ie p - 1) (u - xi - ib f))).
    exists xi, xp, (u - xi - xp)%Z, xv, xo, xa.
    rewrite !pts_In. subst xi xp u xa xo xv t. lia.
  - intros (xi & xp & xf & xv & xo & xa & H1 & H2 & H3 & H4 & H5 & H6 & ->).
    rewrite pts_In in *. lia.
  - intros H.
    set (t := Z.max (ib i + ib p + ib f) (ib v + ib o + ib a - x)%Z).
    set (xi := Z.max (ib i) (Z.min (ie i - 1) (t - ib p - ib f))).
    set (xp := Z.max (ib p) (Z.min (ie p - 1) (t - xi - ib f))).
    set (xf := (t - xi - xp)%Z).
    set (u := (x + t)%Z).
    set (xv := Z.max (ib v) (Z.min (ie v - 1) (u - ib o - ib a))).
    set (xo := Z.max (ib o) (Z.min (ie o - 1) (u - xv - ib a))).
    exists xi, xp, xf, xv, xo, (u - xv - xo)%Z.
    rewrite !pts_In. subst xi xp u xf xo xv t. lia.
  - intros (xi & xp & xf & xv & xo & xa & H1 & H2 & H3 & H4 & H5 & H6 & ->).
    rewrite pts_In in *. lia.
Qed.
