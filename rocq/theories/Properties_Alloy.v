(** Sharper statements for C18: the Alloy annihilations of loops, where they do produce something. *)
From Verif Require Import GenBox.
From Verif Require Import Properties_Generator.
Open Scope Z_scope.

Lemma range_empty a b : b < a -> range a b = [].
Proof. intros H. unfold range. replace (Z.to_nat _) with 0%nat by lia. reflexivity. Qed.
Lemma range_cons a b : a <= b -> range a b = a :: range (a + 1) b.
Proof.
  intros H. unfold range. replace (Z.to_nat (b - a + 1)) with (S (Z.to_nat (b - (a + 1) + 1))) by lia.
  cbn [seq map]. f_equal; [lia|]. rewrite <- seq_shift, map_map. apply map_ext. intros n. lia.
Qed.
Lemma flat_drop A (f : Z -> list A) (m b : Z) : forall n a, (n = Z.to_nat (m - a))%nat -> a <= m ->
  (forall k, a <= k < m -> f k = []) -> flat_map f (range a b) = flat_map f (range m b).
Proof.
  induction n as [|n IH]; intros a Hn Ha Hf; [replace a with m by lia; reflexivity|].
  destruct (Z.leb_spec a b) as [L|L]; [|rewrite !range_empty by lia; reflexivity].
  rewrite (@range_cons a b L). cbn [flat_map]. rewrite Hf by lia. cbn [app]. apply IH; try lia. intros k Hk. apply Hf. lia.
Qed.
Lemma none_tiling lo hi : tiling (fun _ => None) lo hi. Proof. intros k t _ H. discriminate. Qed.
Lemma none_apart f : apart (fun _ => None) f. Proof. intros a b t u _ _ H. discriminate. Qed.

(** An interstitial cluster of one size meets a faulted loop (or a void): vacancy clusters reach up to [m],
    loops start at [m]. Every cluster of the net size is produced, once. Partial: nothing when the net
    size is not positive, although the loop is annihilated (c18_alloy_interstitial_faulted_refuted). *)
Theorem c18_alloy_interstitial_faulted_partial : forall findV findF loV hiV loF hiF m i fb fe,
  tiling findV loV hiV -> tiling findF loF hiF -> apart findV findF ->
  (forall k t, findV k = Some t -> k <= m) -> (forall k t, findF k = Some t -> m <= k) ->
  let P := alloyIF findV findF i fb fe in
  NoDup P /\ ~ In None P /\
  (forall t, In (Some t) P <-> exists k, fb <= k < fe /\ 0 < k - i /\ (findV (k - i) = Some t \/ findF (k - i) = Some t)).
Proof.
  intros findV findF loV hiV loF hiF m i fb fe TV TF A HV HF P.
  assert (E : P = if fe <=? Z.max fb (i + 1) then [] else alloyVP (fun _ => None) findV findF i (Z.max fb (i + 1)) fe).
  { unfold P, alloyIF. rewrite (@flat_drop _ _ (Z.max fb (i + 1)) (fe - 1) _ fb eq_refl); [|lia|].
    - destruct (Z.leb_spec fe (Z.max fb (i + 1))); [rewrite range_empty by lia; reflexivity|]. unfold alloyVP. f_equal.
      rewrite !flat_map_concat_map. f_equal. apply map_ext_in. intros k Hk. apply range_In in Hk.
      unfold alloyIFLook, alloyLook. destruct (Z.ltb_spec 0 (k - i)); [reflexivity|lia].
    - intros k Hk. unfold alloyIFLook. destruct (Z.ltb_spec 0 (k - i)); [lia|reflexivity]. }
  destruct (Z.leb_spec fe (Z.max fb (i + 1))) as [L|L].
  - rewrite E. split; [constructor|]. split; [intros []|]. intros t. split; [intros []|]. intros (k & H1 & H2 & _). lia.
  - destruct (@c18_alloy_vacancy_loop (fun _ => None) findV findF (fun _ => 0) (fun _ => 0) loV hiV loF hiF m i (Z.max fb (i + 1)) fe
      (none_tiling _ _) TV TF (none_apart _) (none_apart _) A HV HF L) as (ND & HS & HN).
    rewrite <- E in ND, HS, HN. split; [exact ND|]. split; [rewrite HN; lia|]. intros t. rewrite HS. split.
    + intros (k & Hk & [[H1 H2]|[_ H]]); [|discriminate]. exists k. split; [lia|]. auto.
    + intros (k & Hk & H1 & H2). exists k. split; [lia|]. left. auto.
Qed.
Print Assumptions c18_alloy_interstitial_faulted_partial.

(** A perfect loop meets a faulted loop (or a void), at least as large whatever the sizes in the two
    groups. Partial: the clusters of every net size but the largest, fe - 1 - pb; see
    c18_alloy_perfect_faulted_refuted and c18_alloy_perfect_faulted_wrap_refuted for the rest. *)
Theorem c18_alloy_perfect_faulted_partial : forall findV findF loV hiV loF hiF m pb pe fb fe,
  tiling findV loV hiV -> tiling findF loF hiF -> apart findV findF ->
  (forall k t, findV k = Some t -> k <= m) -> (forall k t, findF k = Some t -> m <= k) ->
  0 < pb < pe -> pe < 2147483648 -> 0 < fb < fe -> fe < 2147483648 -> 0 <= fb - (pe - 1) ->
  let P := alloyPF findV findF pb pe fb fe in
  NoDup P /\
  (forall t, In (Some t) P <-> exists n, fb - (pe - 1) <= n < fe - 1 - pb /\ 0 < n /\ (findV n = Some t \/ findF n = Some t)) /\
  (In None P <-> fb = pe - 1 /\ 0 < fe - 1 - pb).
Proof.
  intros findV findF loV hiV loF hiF m pb pe fb fe TV TF A HV HF H1 H2 H3 H4 H5 P.
  assert (E : P = if fe - 1 - pb <=? fb - (pe - 1) then [] else alloyVP (fun _ => None) findV findF 0 (fb - (pe - 1)) (fe - 1 - pb)).
  { unfold P, alloyPF. rewrite !u32_small by lia. replace (0 + fb - 1 - pe + 2) with (fb - (pe - 1)) by lia.
    replace (1 + fe - 0 - pb - 2) with (fe - 1 - pb) by lia.
    destruct (Z.leb_spec (fe - 1 - pb) (fb - (pe - 1))); [rewrite range_empty by lia; reflexivity|]. unfold alloyVP. f_equal.
    rewrite !flat_map_concat_map. f_equal. apply map_ext_in. intros k Hk. apply range_In in Hk. rewrite Z.sub_0_r.
    unfold pfLook, alloyLook. destruct (Z.ltb_spec 0 k); [reflexivity|]. destruct (Z.ltb_spec k 0); [lia|reflexivity]. }
  destruct (Z.leb_spec (fe - 1 - pb) (fb - (pe - 1))) as [L|L].
  - rewrite E. split; [constructor|]. split; [|split; [intros []|lia]]. intros t. split; [intros []|]. intros (n & Hn & _). lia.
  - destruct (@c18_alloy_vacancy_loop (fun _ => None) findV findF (fun _ => 0) (fun _ => 0) loV hiV loF hiF m 0 (fb - (pe - 1)) (fe - 1 - pb)
      (none_tiling _ _) TV TF (none_apart _) (none_apart _) A HV HF L) as (ND & HS & HN).
    rewrite <- E in ND, HS, HN. split; [exact ND|]. split; [|rewrite HN; lia]. intros t. rewrite HS. split.
    + intros (k & Hk & [[G1 G2]|[_ G]]); [|discriminate]. exists k. rewrite Z.sub_0_r in *. auto.
    + intros (k & Hk & G1 & G2). exists k. rewrite Z.sub_0_r. auto.
Qed.
Print Assumptions c18_alloy_perfect_faulted_partial.

(** Vacancies 1 to 3, faulted loops [3, 9). *)
Definition alV (k : Z) : option nat := if k =? 1 then Some 0%nat else if k =? 2 then Some 1%nat else if k =? 3 then Some 2%nat else None.
Definition alF (k : Z) : option nat := if (3 <=? k) && (k <? 9) then Some 3%nat else None.
Definition alLo (t : nat) : Z := match t with 0%nat => 1 | 1%nat => 2 | _ => 3 end.
Definition alHi (t : nat) : Z := match t with 0%nat => 2 | 1%nat => 3 | 2%nat => 4 | _ => 9 end.
Example c18_alloy_ok : tiling alV alLo alHi /\ tiling alF alLo alHi /\ apart alV alF /\
  (forall k t, alV k = Some t -> k <= 3) /\ (forall k t, alF k = Some t -> 3 <= k) /\
  alloyIF alV alF 4 3 9 = [Some 0%nat; Some 1%nat; Some 2%nat; Some 3%nat] /\
  alloyPF alV alF 2 4 3 9 = [None; Some 0%nat; Some 1%nat; Some 2%nat; Some 3%nat].
Proof.
  assert (CV : forall k t, alV k = Some t -> (k = 1 /\ t = 0%nat) \/ (k = 2 /\ t = 1%nat) \/ (k = 3 /\ t = 2%nat)).
  { intros k t. unfold alV. destruct (Z.eqb_spec k 1), (Z.eqb_spec k 2), (Z.eqb_spec k 3); intros [= <-]; auto. }
  assert (CF : forall k t, alF k = Some t -> 3 <= k < 9 /\ t = 3%nat).
  { intros k t. unfold alF. destruct (Z.leb_spec 3 k), (Z.ltb_spec k 9); cbn [andb]; intros [= <-]; auto. }
  split; [|split; [|split; [|split; [|split; [|split; reflexivity]]]]].
  - intros k t Hk H. apply CV in H as [[-> ->]|[[-> ->]|[-> ->]]]; cbn [alLo alHi]; (split; [lia|]; split; [lia|]); intros k' _ Hk';
      [replace k' with 1 by lia|replace k' with 2 by lia|replace k' with 3 by lia]; reflexivity.
  - intros k t Hk H. apply CF in H as [H ->]. cbn [alLo alHi]. split; [lia|]. split; [lia|]. intros k' _ Hk'. unfold alF.
    destruct (Z.leb_spec 3 k'), (Z.ltb_spec k' 9); try lia. reflexivity.
  - intros a b t u _ _ H G. apply CV in H. apply CF in G. destruct G as [_ ->]. intuition congruence.
  - intros k t H. apply CV in H. lia.
  - intros k t H. apply CF in H. lia.
Qed.
