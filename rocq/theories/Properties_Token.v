(** C43, C55, C56, C57: reading parameter lists. *)
From Coq Require Import Decimal DecimalString DecimalN.
From Verif Require Import TokenModel.
Set Implicit Arguments.
Open Scope nat_scope.

(** *** C43 *)
Definition LF : ascii := ascii_of_nat 10.
(** The fields of a line: non-empty runs of characters which are not delimiters, with
    delimiters around them. *)
Inductive Fields (delim : text) : text -> list text -> Prop :=
| F_end sep : (forall c, In c sep -> In c delim) -> Fields delim sep []
| F_last sep tok : (forall c, In c sep -> In c delim) -> tok <> [] -> (forall c, In c tok -> ~ In c delim) -> Fields delim (sep ++ tok) [tok]
| F_more sep tok d rest toks : (forall c, In c sep -> In c delim) -> tok <> [] -> (forall c, In c tok -> ~ In c delim) -> In d delim ->
    Fields delim rest toks -> Fields delim (sep ++ tok ++ d :: rest) (tok :: toks).
Lemma isDelim_In delim c : isDelim delim c = true <-> In c delim.
Proof. unfold isDelim. rewrite existsb_exists. split; [intros [d [H E]]; apply Ascii.eqb_eq in E; subst; auto|intros H; exists c; split; auto; apply Ascii.eqb_refl]. Qed.
Lemma isDelim_not delim c : isDelim delim c = false <-> ~ In c delim.
Proof. rewrite <- isDelim_In. destruct (isDelim delim c); split; congruence. Qed.
Lemma tokens_sep delim sep s : (forall c, In c sep -> In c delim) -> tokensFrom delim [] (sep ++ s) = tokensFrom delim [] s.
Proof. induction sep as [|c sep IH]; intros H; [reflexivity|]. cbn [app tokensFrom]. rewrite (proj2 (isDelim_In delim c)) by (apply H; left; auto). cbn [flush app]. apply IH. intros x Hx. apply H. right. auto. Qed.
Lemma tokens_tok delim tok s : forall cur, (forall c, In c tok -> ~ In c delim) -> tokensFrom delim cur (tok ++ s) = tokensFrom delim (cur ++ tok) s.
Proof.
  induction tok as [|c tok IH]; intros cur H; [rewrite app_nil_r; reflexivity|]. cbn [app tokensFrom]. rewrite (proj2 (isDelim_not delim c)) by (apply H; left; auto).
  rewrite IH by (intros x Hx; apply H; right; auto). rewrite <- app_assoc. reflexivity.
Qed.
Lemma fields_sep delim c line toks : In c delim -> Fields delim line toks -> Fields delim (c :: line) toks.
Proof.
  intros Hc H. destruct H as [sep H|sep tok H1 H2 H3|sep tok d rest toks H1 H2 H3 H4 H5].
  - apply F_end. intros x [<-|Hx]; auto.
  - apply (@F_last delim (c :: sep)); auto. intros x [<-|Hx]; auto.
  - apply (@F_more delim (c :: sep)); auto. intros x [<-|Hx]; auto.
Qed.
Lemma tokens_fields delim s : forall cur, (forall c, In c cur -> ~ In c delim) -> Fields delim (cur ++ s) (tokensFrom delim cur s).
Proof.
  induction s as [|c s IH]; intros cur H; cbn [tokensFrom].
  - rewrite app_nil_r. destruct cur as [|x cur]; cbn [flush]; [apply F_end; intros ? []|]. apply (@F_last delim [] (x :: cur)); auto; [intros ? []|discriminate].
  - destruct (isDelim delim c) eqn:E.
    + apply isDelim_In in E. destruct cur as [|x cur]; cbn [flush app].
      * apply fields_sep; auto. apply (IH []). intros ? [].
      * apply (@F_more delim [] (x :: cur) c s); auto; [intros ? []|discriminate|]. apply (IH []). intros ? [].
    + apply isDelim_not in E. replace (cur ++ c :: s) with ((cur ++ [c]) ++ s) by (rewrite <- app_assoc; reflexivity). apply IH.
      intros x Hx. apply in_app_or in Hx as [Hx|[<-|[]]]; auto.
Qed.
Theorem c43_fields delim line toks : Fields delim line toks <-> tokens delim line = toks.
Proof.
  unfold tokens. split.
  - induction 1 as [sep H|sep tok H1 H2 H3|sep tok d rest toks H1 H2 H3 H4 H5 IH].
    + rewrite <- (app_nil_r sep), tokens_sep by auto. reflexivity.
    + rewrite tokens_sep by auto. rewrite <- (app_nil_r tok) at 1. rewrite tokens_tok by auto. cbn. destruct tok; [congruence|reflexivity].
    + rewrite tokens_sep by auto. rewrite tokens_tok by auto. cbn [app tokensFrom]. rewrite (proj2 (isDelim_In delim d)) by auto. rewrite IH. destruct tok; [congruence|reflexivity].
  - intros <-. apply (@tokens_fields delim line []). intros ? [].
Qed.
Definition isComment (comment line : text) : Prop := line <> [] /\ exists r, line = comment ++ r.
Lemma startsWith_spec p s : startsWith p s = true <-> exists r, s = p ++ r.
Proof.
  revert s. induction p as [|a p IH]; intros s; cbn; [split; eauto|]. destruct s as [|c s]; [split; [discriminate|intros [r Hr]; discriminate]|].
  rewrite andb_true_iff, Ascii.eqb_eq, IH. split; [intros [-> [r ->]]; eauto|intros [r Hr]; injection Hr as -> ->; eauto].
Qed.
Lemma cutLine_nl l rest : ~ In nl l -> cutLine (l ++ nl :: rest) = (l, rest).
Proof. induction l as [|c l IH]; intros H; cbn [app cutLine]; [rewrite Ascii.eqb_refl; reflexivity|]. destruct (Ascii.eqb_spec c nl) as [->|]; [exfalso; apply H; left; auto|]. rewrite IH; [reflexivity|]. intros Hin. apply H. right. auto. Qed.
Lemma cutLine_end l : ~ In nl l -> cutLine l = (l, []).
Proof. induction l as [|c l IH]; intros H; cbn [cutLine]; [reflexivity|]. destruct (Ascii.eqb_spec c nl) as [->|]; [exfalso; apply H; left; auto|]. rewrite IH; [reflexivity|]. intros Hin. apply H. right. auto. Qed.
(** What is read when comment lines cs come first. *)
Lemma load_comments delim comment cs s data : (forall c, In c cs -> isComment comment c /\ ~ In nl c) -> forall fuel,
  length cs <= fuel -> load fuel delim comment (concat (map (fun c => c ++ [nl]) cs) ++ s) data = load (fuel - length cs) delim comment s data.
Proof.
  induction cs as [|c cs IH]; intros H fuel Hf; [rewrite Nat.sub_0_r; reflexivity|]. destruct fuel as [|fuel]; cbn [length] in *; [lia|].
  destruct (H c (or_introl eq_refl)) as [[Hc1 [r Hc2]] Hc3]. cbn [map concat]. rewrite <- !app_assoc. cbn [app load]. unfold getline.
  destruct (c ++ nl :: concat (map (fun c => c ++ [nl]) cs) ++ s) eqn:E; [destruct c; discriminate|]. rewrite <- E. rewrite cutLine_nl by auto.
  destruct c as [|x c]; [congruence|]. rewrite (proj2 (startsWith_spec comment (x :: c))) by eauto. apply IH; [intros y Hy; apply H; right; auto|lia].
Qed.
Lemma comments_length cs s : length cs <= length (concat (map (fun c : text => c ++ [nl]) cs) ++ s).
Proof. induction cs as [|c cs IH]; cbn [map concat length app]; [lia|]. rewrite <- !app_assoc, app_length. cbn [app length]. lia. Qed.
(** Comment lines are skipped; the fields of the next line are appended in order; the stream is
    left behind the line. *)
Theorem c43_next delim comment cs line rest toks data :
  (forall c, In c cs -> isComment comment c /\ ~ In LF c) -> ~ In LF line -> line <> [] -> ~ isComment comment line -> Fields delim line toks ->
  loadLine delim comment (concat (map (fun c => c ++ [LF]) cs) ++ line ++ LF :: rest) data = Some (data ++ toks, rest) /\
  loadLine delim comment (concat (map (fun c => c ++ [LF]) cs) ++ line) data = Some (data ++ toks, []).
Proof.
  change LF with nl.
  intros Hcs Hl Hne Hnc Hf. apply c43_fields in Hf. assert (Hs : startsWith comment line = false).
  { destruct (startsWith comment line) eqn:E; auto. exfalso. apply Hnc. split; auto. apply startsWith_spec. auto. }
  unfold loadLine. split.
  - assert (L := comments_length cs (line ++ nl :: rest)). rewrite load_comments by (auto; lia).
    match goal with |- load ?f _ _ _ _ = _ => destruct f as [|k] eqn:Ek end; [exfalso; apply Nat.sub_0_le in Ek; apply (Nat.lt_irrefl (length cs)); eapply Nat.le_lt_trans; [exact L|exact Ek]|]. cbn [load]. unfold getline. destruct (line ++ nl :: rest) eqn:E; [destruct line; discriminate|].
    rewrite <- E. rewrite cutLine_nl by auto. destruct line as [|x line]; [congruence|]. rewrite Hs, Hf. reflexivity.
  - assert (L := comments_length cs line). rewrite load_comments by (auto; lia).
    match goal with |- load ?f _ _ _ _ = _ => destruct f as [|k] eqn:Ek end; [exfalso; apply Nat.sub_0_le in Ek; apply (Nat.lt_irrefl (length cs)); eapply Nat.le_lt_trans; [exact L|exact Ek]|]. cbn [load]. unfold getline. destruct line as [|x line]; [congruence|]. rewrite cutLine_end by auto. rewrite Hs, Hf. reflexivity.
Qed.
(** At the end of the input nothing is appended. *)
Theorem c43_end delim comment cs data : (forall c, In c cs -> isComment comment c /\ ~ In LF c) ->
  loadLine delim comment (concat (map (fun c => c ++ [LF]) cs)) data = Some (data, []).
Proof.
  change LF with nl.
  intros H. unfold loadLine. rewrite <- (app_nil_r (concat _)). assert (L := comments_length cs []). rewrite load_comments by (auto; lia).
  match goal with |- load ?f _ _ _ _ = _ => destruct f as [|k] eqn:Ek end; [exfalso; apply Nat.sub_0_le in Ek; apply (Nat.lt_irrefl (length cs)); eapply Nat.le_lt_trans; [exact L|exact Ek]|]. reflexivity.
Qed.
(** Reading always comes back. *)
Lemma cutLine_length s : s <> [] -> length (snd (cutLine s)) < length s.
Proof.
  induction s as [|c s IH]; [congruence|]. intros _. cbn [cutLine]. destruct (c =c nl); [cbn; lia|]. destruct s as [|c' s]; [cbn; lia|].
  specialize (IH ltac:(discriminate)). destruct (cutLine (c' :: s)) as [l r]. cbn [snd length] in *. lia.
Qed.
Theorem c43_defined delim comment s data : loadLine delim comment s data <> None.
Proof.
  unfold loadLine. assert (G : forall fuel s, length s < fuel -> load fuel delim comment s data <> None).
  { induction fuel as [|fuel IH]; intros s' Hs; [lia|]. cbn [load]. unfold getline. destruct s' as [|c s']; [discriminate|]. assert (L := @cutLine_length (c :: s') ltac:(discriminate)).
    destruct (cutLine (c :: s')) as [[|x line] rest]; [discriminate|]. destruct (startsWith comment (x :: line)); [|discriminate]. apply IH. cbn [snd] in L. lia. }
  apply G. lia.
Qed.
Example c43_ok : loadLine (t " ") (t "#") (t "# sizes" ++ [nl] ++ t " 8  1 0" ++ [nl] ++ t "2") [] = Some ([t "8"; t "1"; t "0"], t "2") /\
  isComment (t "#") (t "# sizes") /\ ~ In nl (t "# sizes") /\ ~ isComment (t "#") (t " 8  1 0") /\ Fields (t " ") (t " 8  1 0") [t "8"; t "1"; t "0"].
Proof.
  split; [reflexivity|]. split; [split; [discriminate|eexists; cbn; reflexivity]|]. split; [cbn; intuition discriminate|]. split; [intros [_ [r Hr]]; discriminate|]. apply c43_fields. reflexivity.
Qed.
(** No tokens do not mean the end of the input: an empty line, or one of delimiters, gives none. *)
Theorem c43_blank_refuted : exists s rest, loadLine (t " ") (t "#") s [] = Some ([], rest) /\ exists toks rest', loadLine (t " ") (t "#") rest [] = Some (toks, rest') /\ toks <> [].
Proof. exists ([nl] ++ t "1 2"), (t "1 2"). split; [reflexivity|]. exists [t "1"; t "2"], []. split; [reflexivity|discriminate]. Qed.
(** A comment behind white space is read as data. *)
Theorem c43_indented_refuted : loadLine (t " ") (t "#") (t " # old 7") [] = Some ([t "#"; t "old"; t "7"], []).
Proof. reflexivity. Qed.
(** The decimal notation of a number in range is read back. *)
Lemma read_pos d : forall a, readDigits (Z.pos a) (t (NilEmpty.string_of_uint d)) = Z.pos (Pos.of_uint_acc d a).
Proof.
  induction d; intros a; [reflexivity| | | | | | | | | |]; cbn [NilEmpty.string_of_uint]; unfold t; cbn [list_ascii_of_string readDigits]; fold (t (NilEmpty.string_of_uint d));
  match goal with |- context [digit ?c] => let r := eval cbv in (digit c) in change (digit c) with r end; cbn iota;
  match goal with |- readDigits ?z _ = Z.pos (Pos.of_uint_acc _ ?a0) => cbn [Pos.of_uint_acc]; match goal with |- _ = Z.pos (Pos.of_uint_acc _ ?b) => replace z with (Z.pos b) by lia end end; apply IHd.
Qed.
Lemma read_uint d : readDigits 0 (t (NilEmpty.string_of_uint d)) = Z.of_N (N.of_uint d).
Proof.
  induction d; [reflexivity| | | | | | | | | |]; cbn [NilEmpty.string_of_uint]; unfold t; cbn [list_ascii_of_string readDigits]; fold (t (NilEmpty.string_of_uint d));
  match goal with |- context [digit ?c] => let r := eval cbv in (digit c) in change (digit c) with r end; cbn iota;
  [change (10 * 0 + 0)%Z with 0%Z; exact IHd|..]; match goal with |- readDigits ?z _ = _ => let r := eval cbv in z in change z with r end; apply read_pos.
Qed.
Definition decimal (n : N) : text := t (NilEmpty.string_of_uint (N.to_uint n)).
Definition sign (neg : bool) : text := if neg then t "-" else [].
Lemma digit_spec c : digit c = None <-> ~ In c (t "0123456789").
Proof.
  destruct c as [[] [] [] [] [] [] [] []]; vm_compute; (split; [intros H|intros H]); try (intros K; repeat (destruct K as [K|K]; [discriminate|]); exact K); try reflexivity; try discriminate;
  exfalso; apply H; auto 12.
Qed.
Lemma read_rest d rest : forall a, (forall c r, rest = c :: r -> ~ In c (t "0123456789")) -> readDigits a (t (NilEmpty.string_of_uint d) ++ rest) = readDigits a (t (NilEmpty.string_of_uint d)).
Proof.
  intros a H. revert a. assert (G : forall s a, (exists y, readDigits a (s ++ rest) = y /\ readDigits a s = y) \/ True) by auto. clear G.
  generalize (t (NilEmpty.string_of_uint d)). intros s. induction s as [|c s IH]; intros a; cbn [app readDigits].
  - destruct rest as [|c r]; [reflexivity|]. cbn [readDigits]. rewrite (proj2 (digit_spec c)) by (eapply H; eauto). reflexivity.
  - destruct (digit c); [apply IH|reflexivity].
Qed.
(** White space before the number is skipped, a sign is heeded, and reading ends with the digits. *)
Theorem c43_number lowest highest n blanks neg rest : (lowest <= 0)%Z -> (0 <= highest)%Z ->
  (forall c, In c blanks -> In c (t " " ++ ["009"; "010"; "011"; "012"; "013"]%char)) -> (forall c r, rest = c :: r -> ~ In c (t "0123456789")) ->
  extractInt lowest highest (blanks ++ sign neg ++ decimal n ++ rest) =
    Some (if neg then Z.max lowest (- Z.of_N n) else Z.min highest (Z.of_N n)).
Proof.
  intros Hl Hh Hb Hr. assert (E : readDigits 0 (decimal n ++ rest) = Z.of_N n). { unfold decimal. rewrite read_rest by auto. rewrite read_uint. f_equal. apply Unsigned.of_to. }
  assert (Sk : forall s, skipSpace (blanks ++ s) = skipSpace s).
  { intros s. clear -Hb. induction blanks as [|c l IH]; [reflexivity|]. cbn [app skipSpace]. replace (isSpace c) with true; [apply IH; intros x Hx; apply Hb; right; auto|].
    symmetry. unfold isSpace. apply existsb_exists. exists c. split; [apply Hb; left; auto|apply Ascii.eqb_refl]. }
  unfold extractInt. rewrite Sk. destruct neg; cbn [sign].
  - unfold t at 1. cbn [list_ascii_of_string app]. change (skipSpace ("-"%char :: decimal n ++ rest)) with ("-"%char :: decimal n ++ rest). cbn iota zeta. rewrite Ascii.eqb_refl. rewrite E. f_equal. lia.
  - cbn [app]. unfold decimal in *. destruct (N.to_uint n) eqn:Eu.
    { exfalso. assert (n = 0%N) by (rewrite <- (Unsigned.of_to n), Eu; reflexivity). subst. discriminate. }
    all: revert E; cbn [NilEmpty.string_of_uint]; unfold t; cbn [list_ascii_of_string app];
    match goal with |- context [skipSpace (?c :: ?s)] => change (skipSpace (c :: s)) with (c :: s) end; cbn iota zeta; intros ->; f_equal; repeat match goal with |- context [?a =c ?b] => change (a =c b) with false; cbn iota end; lia.
Qed.
Example c43_number_ok : t " " ++ sign true ++ decimal 250 ++ t "nm" = t " -250nm" /\ (forall c r, t "nm" = c :: r -> ~ In c (t "0123456789")) /\ extractInt (-100) 100 (t " -250nm") = Some (-100)%Z.
Proof. repeat split. intros c r H. injection H as <- <-. cbn. intuition discriminate. Qed.
(** A plus sign may precede the digits. *)
Theorem c43_plus lowest highest n : (lowest <= 0)%Z -> (Z.of_N n <= highest)%Z -> extractInt lowest highest (t "+" ++ decimal n) = Some (Z.of_N n).
Proof.
  intros Hl Hh. unfold extractInt. unfold t at 1. cbn [list_ascii_of_string app]. change (skipSpace ("+"%char :: decimal n)) with ("+"%char :: decimal n). cbn iota zeta. rewrite Ascii.eqb_refl. replace (Ascii.eqb "+" "-") with false by reflexivity.
  unfold decimal. rewrite read_uint, Unsigned.of_to. f_equal. lia.
Qed.
(** Anything else is read without complaint: letters as 0, what follows the digits not at all (a
    tab is not a delimiter: the values behind it are lost), white space as an arbitrary value. *)
Theorem c43_number_refuted : extractInt (-2147483648) 2147483647 (t "abc") = Some 0%Z /\ extractInt (-2147483648) 2147483647 (t "1e3") = Some 1%Z /\
  map (extractInt (-2147483648) 2147483647) (tokens (t " ") (t "8" ++ ["009"%char] ++ t "1")) = [Some 8%Z] /\
  map (extractInt (-2147483648) 2147483647) (tokens (t " ") (t "8 " ++ ["009"%char])) = [Some 8%Z; None].
Proof. repeat split. Qed.
Print Assumptions c43_fields.
Print Assumptions c43_next.
Print Assumptions c43_end.
Print Assumptions c43_defined.
Print Assumptions c43_number.

(** *** C55: parameter lists *)
Theorem c55_array (A : Type) n (old params : list A) : length old = n ->
  (n < length params -> setArray n old params = Thrown) /\
  (length params <= n -> exists new, setArray n old params = Done new /\ length new = n /\
     forall i, nth_error new i = if i <? length params then nth_error params i else nth_error old i).
Proof.
  intros Ho. unfold setArray. split; intros H.
  - destruct (Nat.ltb_spec n (length params)); [reflexivity|lia].
  - destruct (Nat.ltb_spec n (length params)); [lia|]. eexists. split; [reflexivity|]. split; [rewrite app_length, skipn_length; lia|].
    intros i. destruct (Nat.ltb_spec i (length params)); [apply nth_error_app1; auto|]. rewrite nth_error_app2 by auto.
    rewrite <- (firstn_skipn (length params) old) at 2. rewrite nth_error_app2; rewrite firstn_length, Nat.min_l by lia; [reflexivity|auto].
Qed.
(** The temperature takes at most two parameters, the grid at most six. *)
Theorem c55_temp_grid (A : Type) (oldT oldG params : list A) : length oldT = 2 -> length oldG = 6 ->
  (setTempParam oldT params = Thrown <-> 2 < length params) /\ (setGridParam oldG params = Thrown <-> 6 < length params) /\
  (forall new, setTempParam oldT params = Done new -> length new = 2 /\ forall i, nth_error new i = if i <? length params then nth_error params i else nth_error oldT i) /\
  (forall new, setGridParam oldG params = Done new -> length new = 6 /\ forall i, nth_error new i = if i <? length params then nth_error params i else nth_error oldG i).
Proof.
  intros Ht Hg. unfold setTempParam, setGridParam. destruct (@c55_array A 2 oldT params Ht) as [T1 T2], (@c55_array A 6 oldG params Hg) as [G1 G2].
  split; [|split; [|split]].
  - split; auto. intros H. destruct (Nat.lt_ge_cases 2 (length params)); auto. destruct (T2 H0) as [n [E _]]. congruence.
  - split; auto. intros H. destruct (Nat.lt_ge_cases 6 (length params)); auto. destruct (G2 H0) as [n [E _]]. congruence.
  - intros new H. destruct (Nat.lt_ge_cases 2 (length params)) as [L|L]; [rewrite (T1 L) in H; discriminate|]. destruct (T2 L) as [n [E K]]. rewrite E in H. injection H as <-. exact K.
  - intros new H. destruct (Nat.lt_ge_cases 6 (length params)) as [L|L]; [rewrite (G1 L) in H; discriminate|]. destruct (G2 L) as [n [E K]]. rewrite E in H. injection H as <-. exact K.
Qed.
(** Network sizes: with one value the others have their defaults, with five the largest pure
    vacancy cluster is the largest vacancy cluster. *)
Theorem c55_net_partial p : length p = 1 \/ 5 <= length p ->
  exists n, setNetworkParameters p = Done n /\ nth_error p 0 = Some (maxImpurity n) /\
    (if 1 <? length p then nth_error p 1 = Some (maxD n) /\ nth_error p 2 = Some (maxT n) /\ nth_error p 3 = Some (maxV n) /\ nth_error p 4 = Some (maxI n) /\
       (if 5 <? length p then nth_error p 5 = Some (maxPureV n) else maxPureV n = maxV n)
     else n = Net (maxImpurity n) 0 0 20 6 20).
Proof.
  unfold setNetworkParameters, at_. destruct p as [|a [|b [|c [|d [|e [|f p]]]]]]; cbn [length]; intros H; try lia; cbn; eexists; (split; [reflexivity|]); cbn; auto 10.
Qed.
Theorem c55_net_refuted p : length p = 0 \/ 2 <= length p <= 4 -> setNetworkParameters p = Undefined.
Proof. unfold setNetworkParameters, at_. destruct p as [|a [|b [|c [|d [|e p]]]]]; cbn [length]; intros H; try lia; reflexivity. Qed.
Theorem c55_grouping_partial b p : 2 <= length p -> exists x y z, setGroupingParams b p = Done (x, y, z) /\ nth_error p 0 = Some x /\ nth_error p 1 = Some y /\
  z = match nth_error p 2 with Some w => w | None => b end.
Proof. unfold setGroupingParams, at_. destruct p as [|x [|y [|z p]]]; cbn [length]; intros H; try lia; cbn; repeat eexists. Qed.
Theorem c55_grouping_refuted b p : length p < 2 -> setGroupingParams b p = Undefined.
Proof. unfold setGroupingParams, at_. destruct p as [|x [|y p]]; cbn [length]; intros H; try lia; reflexivity. Qed.
Theorem c55_pulse_partial (A : Type) (p : list A) : 2 <= length p -> exists x y, setPulseParams p = Done (x, y) /\ nth_error p 0 = Some x /\ nth_error p 1 = Some y.
Proof. unfold setPulseParams, at_. destruct p as [|x [|y p]]; cbn [length]; intros H; try lia; cbn; repeat eexists. Qed.
Theorem c55_pulse_refuted (A : Type) (p : list A) : length p < 2 -> setPulseParams p = Undefined.
Proof. unfold setPulseParams, at_. destruct p as [|x [|y p]]; cbn [length]; intros H; try lia; reflexivity. Qed.
Theorem c55_boundaries_partial old p : length old = 6 -> 2 <= length p <= 6 ->
  exists new, setBoundaries old p = Done new /\ length new = 6 /\ forall i, nth_error new i = if i <? length p then nth_error p i else nth_error old i.
Proof.
  intros Ho H. unfold setBoundaries. destruct (Nat.ltb_spec (length p) 2); [lia|]. rewrite firstn_all2 by lia. eexists. split; [reflexivity|]. split; [rewrite app_length, skipn_length; lia|].
  intros i. destruct (Nat.ltb_spec i (length p)); [apply nth_error_app1; auto|]. rewrite nth_error_app2 by auto.
  rewrite <- (firstn_skipn (length p) old) at 2. rewrite nth_error_app2; rewrite firstn_length, Nat.min_l by lia; [reflexivity|auto].
Qed.
(** A single boundary value is dropped, values after the sixth as well; the same holds of network
    sizes after the sixth, pulse values after the second and grouping values after the third. *)
Theorem c55_dropped_refuted old b a b' c d e f g (x y : Z) rest : length old = 6 ->
  setBoundaries old [a] = Done old /\ setBoundaries old ([a; b'; c; d; e; f] ++ g :: rest) = Done [a; b'; c; d; e; f] /\
  setNetworkParameters ([a; b'; c; d; e; f] ++ g :: rest) = Done (Net a b' c d e f) /\ setPulseParams (x :: y :: rest) = Done (x, y) /\ setGroupingParams b (a :: b' :: c :: rest) = Done (a, b', c).
Proof.
  intros Ho. split; [reflexivity|]. split; [unfold setBoundaries; cbn [length app Nat.ltb Nat.leb firstn]; rewrite skipn_all2 by (rewrite Ho; lia); reflexivity|]. repeat split.
Qed.
Theorem c55_coupling (A : Type) (nonPositive : A -> bool) toSteps p :
  (length p <> 6 -> setCouplingTimeStepParams nonPositive toSteps p = Thrown) /\
  (forall m, length p = 6 -> nth_error p 5 = Some m -> setCouplingTimeStepParams nonPositive toSteps p = if nonPositive m then Thrown else Done (firstn 5 p, toSteps m)).
Proof.
  unfold setCouplingTimeStepParams, at_. split; intros.
  - destruct (Nat.eqb_spec (length p) 6); [congruence|reflexivity].
  - destruct (Nat.eqb_spec (length p) 6); [|congruence]. cbn [negb]. rewrite H0. reflexivity.
Qed.
Theorem c55_rng_partial strtoul s : s <> t "print" ->
  processRNGParam strtoul [s] = match strtoul s with Some n => Done (Some n, false) | None => Thrown end /\
  processRNGParam strtoul [t "print"] = Done (None, true) /\
  processRNGParam strtoul [t "print"; s] = match strtoul s with Some n => Done (Some n, true) | None => Thrown end.
Proof.
  intros H. unfold processRNGParam, at_, bind. cbn [nth_error length]. destruct (list_eq_dec ascii_dec s (t "print")); [contradiction|]. destruct (list_eq_dec ascii_dec (t "print") (t "print")); [|congruence].
  repeat split; reflexivity.
Qed.
Theorem c55_rng_refuted strtoul : processRNGParam strtoul [] = Undefined.
Proof. reflexivity. Qed.
(** Initial concentrations: full triples of known clusters. *)
Theorem c55_initial_partial (A B C : Type) (species : text -> option C) (lookup : C -> text -> option A) (toDouble : text -> B) l :
  (forall s n c, In (s, n, c) l -> exists sp, species s = Some sp /\ lookup sp n <> None) ->
  exists r, initialConc species lookup toDouble (concat (map (fun '(s, n, c) => [s; n; c]) l)) = Done r /\
    Forall2 (fun '(s, n, c) '(id, x) => exists sp, species s = Some sp /\ lookup sp n = Some id /\ x = toDouble c) l r.
Proof.
  induction l as [|[[s n] c] l IH]; intros H; [exists []; split; [reflexivity|constructor]|].
  destruct IH as [r [E F]]; [intros; eapply H; right; eauto|]. destruct (H s n c (or_introl eq_refl)) as [sp [Hs Hl]]. destruct (lookup sp n) as [id|] eqn:El; [|congruence].
  exists ((id, toDouble c) :: r). split; [|constructor; eauto]. cbn [map concat app initialConc]. rewrite Hs, El, E. reflexivity.
Qed.
Theorem c55_initial_refuted (A B C : Type) (species : text -> option C) (lookup : C -> text -> option A) (toDouble : text -> B) s n sp id :
  species s = Some sp -> lookup sp n = Some id -> initialConc species lookup toDouble [s] = Undefined /\ initialConc species lookup toDouble [s; n] = Undefined.
Proof. intros H1 H2. cbn. rewrite H1, H2. auto. Qed.
(** Grain boundaries, pairs of a direction which exists in the number of dimensions and a place. *)
Definition name (d : dir) : text := match d with DX => t "X" | DY => t "Y" | DZ => t "Z" end.
Definition needs (d : dir) : Z := match d with DX => 1 | DY => 2 | DZ => 3 end.
Theorem c55_grain_partial dim l : (forall d p, In (d, p) l -> (needs d <= dim)%Z) -> grainBoundaries dim (concat (map (fun '(d, p) => [name d; p]) l)) = Done l.
Proof.
  induction l as [|[d p] l IH]; intros H; [reflexivity|]. cbn [map concat app grainBoundaries]. rewrite IH by (intros; eapply H; right; eauto).
  specialize (H d p (or_introl eq_refl)). destruct d; cbn [name needs] in *; unfold direction; [reflexivity| |].
  - change (text_dec (t "Y") (t "X")) with (text_dec (t "Y") (t "X")). destruct (text_dec (t "Y") (t "X")); [discriminate|]. destruct (text_dec (t "Y") (t "Y")); [|congruence]. destruct (Z.ltb_spec dim 2); [lia|reflexivity].
  - destruct (text_dec (t "Z") (t "X")); [discriminate|]. destruct (text_dec (t "Z") (t "Y")); [discriminate|]. destruct (text_dec (t "Z") (t "Z")); [|congruence]. destruct (Z.ltb_spec dim 2); [lia|reflexivity].
Qed.
(** A direction without a place is an access past the list; a boundary across Z is accepted in two
    dimensions, against the message of the check. *)
Theorem c55_grain_refuted dim p : grainBoundaries dim [t "X"] = Undefined /\ grainBoundaries 2 [t "Z"; p] = Done [(DZ, p)].
Proof. split; reflexivity. Qed.
Example c55_ok : setNetworkParameters [8; 1; 0; 50; 6]%Z = Done (Net 8 1 0 50 6 50) /\ setTempParam [1; 2]%Z [7]%Z = Done [7; 2]%Z /\ setGroupingParams 0 [31; 4]%Z = Done (31, 4, 0)%Z /\
  setBoundaries [1; 1; 1; 1; 1; 1]%Z [0; 1; 0]%Z = Done [0; 1; 0; 1; 1; 1]%Z /\ grainBoundaries 3 (tokens (t " ") (t "X 3.0 Z 2.5")) = Done [(DX, t "3.0"); (DZ, t "2.5")].
Proof. repeat split. Qed.
(** Numbers given in one string, separated by blanks, are the numbers of the list. *)
Fixpoint join (l : list text) : text := match l with [] => [] | x :: l' => match l' with [] => x | _ => x ++ t " " ++ join l' end end.
Lemma decimal_chars n : decimal n <> [] /\ ~ In " "%char (decimal n).
Proof.
  unfold decimal. assert (G : forall d, ~ In " "%char (t (NilEmpty.string_of_uint d))).
  { induction d; cbn [NilEmpty.string_of_uint]; unfold t in *; cbn [list_ascii_of_string In]; [auto|intros [K|K]; [discriminate|auto]..]. }
  split; [|apply G]. destruct (N.to_uint n) eqn:Eu; try discriminate. exfalso. assert (n = 0%N) by (rewrite <- (Unsigned.of_to n), Eu; reflexivity). subst. discriminate.
Qed.
Lemma join_fields ts : (forall x, In x ts -> x <> [] /\ ~ In " "%char x) -> Fields (t " ") (join ts) ts.
Proof.
  induction ts as [|x ts IH]; intros H; [apply F_end; intros ? []|]. destruct (H x (or_introl eq_refl)) as [H1 H2].
  assert (Hx : forall c, In c x -> ~ In c (t " ")) by (intros c Hc [<-|[]]; auto). cbn [join]. destruct ts as [|y ts].
  - apply (@F_last _ [] x); auto. intros ? [].
  - apply (@F_more _ [] x " "%char); auto; [intros ? []|left; reflexivity|]. apply IH. intros z Hz. apply H. right. auto.
Qed.
Theorem c55_same_as_array lowest highest ns : (lowest <= 0)%Z -> (forall n, In n ns -> (Z.of_N n <= highest)%Z) ->
  map (extractInt lowest highest) (tokens (t " ") (join (map decimal ns))) = map (fun n => Some (Z.of_N n)) ns.
Proof.
  intros Hl Hn. replace (tokens (t " ") (join (map decimal ns))) with (map decimal ns).
  - rewrite map_map. apply map_ext_in. intros n Hin. assert (E := @c43_number lowest highest n [] false [] Hl). cbn [sign app] in E. rewrite app_nil_r in E. specialize (Hn n Hin). rewrite E; [f_equal; lia|lia|intros ? []|discriminate].
  - symmetry. apply c43_fields. apply join_fields. intros x Hx. apply in_map_iff in Hx as [n [<- _]]. apply decimal_chars.
Qed.
Example c55_same_as_array_ok : join (map decimal [8; 0; 12]%N) = t "8 0 12". Proof. reflexivity. Qed.
(** The arguments for PETSc given as a list are handed on one after the other; given as one string
    they are dropped without a message. *)
Theorem c55_petsc_partial l : l <> [] -> (forall x, In x l -> x <> []) -> petscArgs [] (Items l) = join l.
Proof.
  intros Hne H. assert (G : forall l old, old <> [] -> fold_left appendPetscArg l old = join (old :: l)).
  { induction l0 as [|x l0 IH]; intros old Ho; [reflexivity|]. cbn [fold_left]. rewrite IH; [|destruct old; [congruence|discriminate]]. unfold appendPetscArg. destruct old as [|c old]; [congruence|].
    cbn [join]. destruct l0; rewrite <- ?app_assoc; reflexivity. }
  destruct l as [|x l]; [congruence|]. cbn [petscArgs fold_left]. rewrite G; [reflexivity|]. apply (H x). left. auto.
Qed.
Theorem c55_petsc_refuted s : s <> [] -> petscArgs [] (Items [s]) = s /\ petscArgs [] (Scalar s) = [].
Proof. auto. Qed.
Print Assumptions c55_same_as_array.
Print Assumptions c55_array.
Print Assumptions c55_net_partial.
Print Assumptions c55_net_refuted.
Print Assumptions c55_coupling.
Print Assumptions c55_initial_partial.
Print Assumptions c55_grain_partial.

(** *** C57: the processes *)
Lemma find_assign m k b k' : find (assign m k b) k' = if text_dec k k' then Some b else find m k'.
Proof.
  induction m as [|[k0 b0] m IH]; cbn [assign find]; [destruct (text_dec k k'); reflexivity|]. destruct (text_dec k0 k) as [->|N]; cbn [find].
  - destruct (text_dec k k'); reflexivity.
  - rewrite IH. destruct (text_dec k0 k') as [->|]; [|reflexivity]. destruct (text_dec k k'); [congruence|reflexivity].
Qed.
Lemma find_init ks : forall m k, find (fold_left (fun m k => assign m k false) ks m) k = if in_dec text_dec k ks then Some false else find m k.
Proof.
  induction ks as [|k0 ks IH]; intros m k; cbn [fold_left]; [destruct (in_dec text_dec k []) as [[]|]; reflexivity|]. rewrite IH, find_assign.
  destruct (in_dec text_dec k ks) as [i|n]; [destruct (in_dec text_dec k (k0 :: ks)) as [|n']; [reflexivity|exfalso; apply n'; right; auto]|].
  destruct (text_dec k0 k) as [->|N]; destruct (in_dec text_dec k _) as [i'|n']; auto; [exfalso; apply n'; left; auto|]. destruct i'; contradiction.
Qed.
Lemma assign_nonempty m k b : assign m k b <> [].
Proof. destruct m as [|[k' b'] m]; cbn; [discriminate|]. destruct (text_dec k' k); discriminate. Qed.
(** With flags for all process names, adding names sets exactly those. *)
Lemma add_list ks : forall m, m <> [] -> (forall k, find m k <> None <-> In k processNames) ->
  (~ (forall k, In k ks -> In k processNames) -> setProcessList m ks = Thrown) /\
  ((forall k, In k ks -> In k processNames) -> exists m', setProcessList m ks = Done m' /\ forall k, find m' k = if in_dec text_dec k ks then Some true else find m k).
Proof.
  induction ks as [|k0 ks IH]; intros m Hm Hk; cbn [setProcessList].
  - split; [intros H; exfalso; apply H; intros k []|]. intros _. exists m. split; [reflexivity|]. intros k. destruct (in_dec text_dec k []) as [[]|]; reflexivity.
  - unfold addProcess. replace (match m with [] => initMap [] | _ :: _ => m end) with m by (destruct m; [congruence|reflexivity]).
    destruct (find m k0) as [b|] eqn:E.
    + assert (Hin : In k0 processNames) by (apply Hk; congruence). cbn [bind]. destruct (IH (assign m k0 true)) as [I1 I2]; [apply assign_nonempty| |].
      { intros k. rewrite find_assign. destruct (text_dec k0 k) as [<-|]; [|apply Hk]. split; [auto|discriminate]. }
      split; [intros H; apply I1; intros H'; apply H; intros k [<-|K]; auto|]. intros H. destruct I2 as [m' [E' F]]; [intros k K; apply H; right; auto|]. exists m'. split; auto.
      intros k. rewrite F, find_assign. destruct (in_dec text_dec k ks) as [i|n]; [destruct (in_dec text_dec k (k0 :: ks)) as [|n']; [reflexivity|exfalso; apply n'; right; auto]|].
      destruct (text_dec k0 k) as [->|N]; destruct (in_dec text_dec k _) as [i'|n']; auto; [exfalso; apply n'; left; auto|]. destruct i'; contradiction.
    + cbn [bind]. split; [reflexivity|]. intros H. exfalso. apply (proj2 (Hk k0)); auto. apply H. left. auto.
Qed.
Lemma init_ok m : (forall k, find m k <> None -> In k processNames) -> initMap m <> [] /\ (forall k, find (initMap m) k <> None <-> In k processNames).
Proof.
  intros H. assert (F : forall k, find (initMap m) k <> None <-> In k processNames).
  { intros k. unfold initMap. rewrite find_init. destruct (in_dec text_dec k processNames); [split; [auto|discriminate]|]. split; [apply H|contradiction]. }
  split; auto. intros E. apply (proj2 (F (t "diff"))); [cbn; auto|]. rewrite E. reflexivity.
Qed.
(** Given as a string, whatever was set before: exactly the named processes are on; a name which
    is not known is refused. *)
Theorem c57_string m s : (forall k, find m k <> None -> In k processNames) ->
  (~ (forall k, In k (tokens (t " ") s) -> In k processNames) -> setProcesses m s = Thrown) /\
  ((forall k, In k (tokens (t " ") s) -> In k processNames) -> exists m', setProcesses m s = Done m' /\
     forall k, In k processNames -> (find m' k = Some true <-> In k (tokens (t " ") s)) /\ (find m' k = Some false <-> ~ In k (tokens (t " ") s))).
Proof.
  intros H. destruct (init_ok m H) as [H1 H2]. destruct (add_list (tokens (t " ") s) H1 H2) as [A1 A2]. unfold setProcesses. split; [exact A1|].
  intros Hk. destruct (A2 Hk) as [m' [E F]]. exists m'. split; auto. intros k K. rewrite F. unfold initMap. rewrite find_init.
  destruct (in_dec text_dec k processNames); [|contradiction]. destruct (in_dec text_dec k (tokens (t " ") s)); intuition congruence.
Qed.
(** Given as a non-empty list (JSON array) to fresh options: the same. *)
Theorem c57_list_partial ks : ks <> [] ->
  (~ (forall k, In k ks -> In k processNames) -> setProcessList [] ks = Thrown) /\
  ((forall k, In k ks -> In k processNames) -> exists m', setProcessList [] ks = Done m' /\
     forall k, In k processNames -> (find m' k = Some true <-> In k ks) /\ (find m' k = Some false <-> ~ In k ks)).
Proof.
  intros Hne. destruct (init_ok []) as [H1 H2]; [cbn; congruence|]. destruct (add_list ks H1 H2) as [A1 A2].
  assert (E : setProcessList [] ks = setProcessList (initMap []) ks).
  { destruct ks as [|k ks]; [congruence|]. cbn [setProcessList]. unfold addProcess. destruct (initMap []) eqn:Ei; [congruence|]. reflexivity. }
  rewrite E. split; [exact A1|]. intros Hk. destruct (A2 Hk) as [m' [E' F]]. exists m'. split; auto. intros k K. rewrite F. unfold initMap. rewrite find_init.
  destruct (in_dec text_dec k processNames); [|contradiction]. destruct (in_dec text_dec k ks); intuition congruence.
Qed.
(** Given as a list a second time, the processes of the first list stay on; an empty list leaves
    the map without any key. *)
Theorem c57_list_refuted : setProcessList [] [] = Done [] /\
  exists m m', setProcessList [] [t "diff"] = Done m /\ setProcessList m [t "advec"] = Done m' /\ find m' (t "diff") = Some true.
Proof. split; [reflexivity|]. do 2 eexists. split; [reflexivity|]. split; [reflexivity|]. reflexivity. Qed.
Example c57_ok : exists m, setProcesses [] (t "reaction diff") = Done m /\ find m (t "diff") = Some true /\ find m (t "advec") = Some false /\ setProcesses m (t "advect") = Thrown.
Proof. eexists. split; [reflexivity|]. repeat split. Qed.
Print Assumptions c57_string.
Print Assumptions c57_list_partial.

(** *** C56: comments in JSON parameter files *)
(** A parameter file is made of pieces: text outside strings, strings, ends of line and the three
    sorts of comments. *)
Inductive piece := Plain (s : text) | Str (s : text) | EndLine | Hash (s : text) | Slashes (s : text) | Block (s : text).
Definition quote : ascii := "034"%char.
Definition source (p : piece) : text :=
  match p with
  | Plain s => s | Str s => quote :: s ++ [quote] | EndLine => [LF]
  | Hash s => t "#" ++ s ++ [LF] | Slashes s => t "//" ++ s ++ [LF] | Block s => t "/*" ++ s ++ t "*/"
  end.
(** What should be left: everything but comments and ends of line. *)
Definition kept (p : piece) : text := match p with Plain s => s | Str s => quote :: s ++ [quote] | _ => [] end.
(** Consecutive characters a, b. *)
Definition pair (a b : ascii) (s : text) : Prop := exists u v, s = u ++ a :: b :: v.
Definition wf (p : piece) : Prop :=
  match p with
  | Plain s => ~ In LF s /\ ~ In quote s /\ ~ In "#"%char s /\ ~ In "/"%char s
  | Str s => ~ In LF s
  | EndLine => True
  | Hash s | Slashes s => ~ In LF s
  | Block s => ~ pair "*" "/" (s ++ ["*"%char]) 
  end.
Definition safe (p : piece) : Prop := match p with Str s => ~ In "#"%char s /\ ~ pair "/" "/" s /\ ~ pair "/" "*" s | _ => True end.
(** Reading the whole text at once: outside comments, in a line comment, in a block comment. *)
Inductive mode := Out | InLine | InBlock.
Fixpoint run (m : mode) (s : text) : text :=
  match s with
  | [] => []
  | c :: s' =>
    if c =c nl then run (match m with InBlock => InBlock | _ => Out end) s'
    else match m with
         | InLine => run InLine s'
         | InBlock => match s' with d :: s'' => if (c =c "*"%char) && (d =c "/"%char) then run Out s'' else run InBlock s' | [] => [] end
         | Out => if c =c "#"%char then run InLine s'
                  else if c =c "/"%char then
                    match s' with
                    | d :: s'' => if d =c "/"%char then run InLine s' else if d =c "*"%char then run InBlock s'' else c :: run Out s'
                    | [] => [c]
                    end
                  else c :: run Out s'
         end
  end.
Lemma run_inLine l rest : ~ In nl l -> run InLine (l ++ nl :: rest) = run Out rest.
Proof. induction l as [|c l IH]; intros H; cbn [app run]; [rewrite Ascii.eqb_refl; reflexivity|]. destruct (Ascii.eqb_spec c nl) as [->|]; [exfalso; apply H; left; auto|]. apply IH. intros K. apply H. right. auto. Qed.
Lemma run_inLine_end l : ~ In nl l -> run InLine l = [].
Proof. induction l as [|c l IH]; intros H; cbn [run]; [reflexivity|]. destruct (Ascii.eqb_spec c nl) as [->|]; [exfalso; apply H; left; auto|]. apply IH. intros K. apply H. right. auto. Qed.
Definition modeOf (b : bool) := if b then InBlock else Out.
Lemma strip_line n : forall l, length l <= n -> forall b rest, ~ In nl l ->
  run (modeOf b) (l ++ nl :: rest) = fst (stripLine b l) ++ run (modeOf (snd (stripLine b l))) rest /\ run (modeOf b) l = fst (stripLine b l).
Proof.
  induction n as [|n IH]; intros [|c l] Hn b rest H; cbn [length] in Hn; try lia; try (cbn; destruct b; split; reflexivity).
  assert (Hc : c <> nl) by (intros ->; apply H; left; auto). assert (Hl : ~ In nl l) by (intros K; apply H; right; auto).
  assert (Ec : (c =c nl) = false) by (apply Ascii.eqb_neq; auto).
  assert (Keep : forall r, run Out (c :: l ++ r) = c :: run Out (l ++ r) ->  True) by auto.
  destruct b; cbn [modeOf stripLine app run]; rewrite Ec.
  - destruct l as [|d l]; cbn [app].
    + assert (Ed : (nl =c "/"%char) = false) by reflexivity. rewrite Ed, andb_false_r. cbn. split; reflexivity.
    + assert (Hl' : ~ In nl l) by (intros K; apply Hl; right; auto). destruct ((c =c "*"%char) && (d =c "/"%char)).
      * apply (IH l ltac:(cbn in Hn; lia) false rest Hl').
      * apply (IH (d :: l) ltac:(lia) true rest Hl).
  - destruct (c =c "#"%char); [cbn [fst snd app modeOf]; split; [apply run_inLine; auto|apply run_inLine_end; auto]|].
    destruct (c =c "/"%char).
    + destruct l as [|d l]; cbn [app].
      * change (nl =c "/"%char) with false. change (nl =c "*"%char) with false. cbn. split; reflexivity.
      * assert (Hl' : ~ In nl l) by (intros K; apply Hl; right; auto). destruct (d =c "/"%char).
        { cbn [fst snd app modeOf]. split; [apply (run_inLine (d :: l)); auto|apply (run_inLine_end (d :: l)); auto]. }
        destruct (d =c "*"%char); [apply (IH l ltac:(cbn in Hn; lia) true rest Hl')|].
        destruct (IH (d :: l) ltac:(lia) false rest Hl) as [I1 I2]. destruct (stripLine false (d :: l)) as [o b]. cbn [fst snd app modeOf] in *. rewrite I1, I2. split; reflexivity.
    + destruct (IH l ltac:(lia) false rest Hl) as [I1 I2]. destruct (stripLine false l) as [o b]. cbn [fst snd app modeOf] in *. rewrite I1, I2. split; reflexivity.
Qed.
Lemma cutLine_spec s : let '(l, r) := cutLine s in ~ In nl l /\ (s = l ++ nl :: r \/ s = l /\ r = []).
Proof.
  induction s as [|c s IH]; cbn [cutLine]; [auto|]. destruct (Ascii.eqb_spec c nl) as [->|N]; [auto|]. destruct (cutLine s) as [l r]. destruct IH as [I1 I2]. split; [intros [K|K]; [congruence|auto]|].
  destruct I2 as [->|[-> ->]]; auto.
Qed.
Lemma strip_run s : stripComments s = Some (run Out s).
Proof.
  unfold stripComments. assert (G : forall fuel s b, length s < fuel -> stripFrom fuel b s = Some (run (modeOf b) s)).
  { induction fuel as [|fuel IH]; intros s' b Hs; [lia|]. cbn [stripFrom]. unfold getline. destruct s' as [|c s']; [destruct b; reflexivity|]. assert (L := @cutLine_length (c :: s') ltac:(discriminate)).
    assert (Sp := cutLine_spec (c :: s')). destruct (cutLine (c :: s')) as [l r]. cbn [snd] in L. destruct Sp as [Hl Sp]. destruct (@strip_line (length l) l (le_n _) b r Hl) as [E1 E2].
    destruct (stripLine b l) as [o b']. cbn [fst snd] in *. rewrite IH by lia. cbn [option_map]. f_equal. destruct Sp as [->|[-> ->]]; [symmetry; exact E1|]. rewrite E2. destruct b'; cbn; apply app_nil_r. }
  apply (G _ s false). lia.
Qed.
(** Nothing but comments is removed when no string contains what looks like the beginning of one. *)
Lemma run_plain s r : ~ In nl s -> ~ In "#"%char s -> ~ In "/"%char s -> run Out (s ++ r) = s ++ run Out r.
Proof.
  induction s as [|c s IH]; intros H1 H2 H3; [reflexivity|]. cbn [app run].
  destruct (Ascii.eqb_spec c nl) as [->|]; [exfalso; apply H1; left; auto|]. destruct (Ascii.eqb_spec c "#") as [->|]; [exfalso; apply H2; left; auto|]. destruct (Ascii.eqb_spec c "/") as [->|]; [exfalso; apply H3; left; auto|].
  f_equal. apply IH; intros K; [apply H1|apply H2|apply H3]; right; auto.
Qed.
Lemma run_slash e r : e <> "/"%char -> e <> "*"%char -> run Out ("/"%char :: e :: r) = "/"%char :: run Out (e :: r).
Proof.
  intros H1 H2. remember (e :: r) as s eqn:Es. cbn [run]. change ("/" =c nl)%char with false. change ("/" =c "#")%char with false. change ("/" =c "/")%char with true. cbn iota. subst s.
  rewrite (proj2 (Ascii.eqb_neq e "/") H1), (proj2 (Ascii.eqb_neq e "*") H2). reflexivity.
Qed.
Lemma run_safe s d r : ~ In nl s -> ~ In "#"%char s -> ~ pair "/" "/" (s ++ [d]) -> ~ pair "/" "*" (s ++ [d]) -> run Out (s ++ d :: r) = s ++ run Out (d :: r).
Proof.
  induction s as [|c s IH]; intros H1 H2 H3 H4; [reflexivity|]. assert (I : run Out (s ++ d :: r) = s ++ run Out (d :: r)).
  { apply IH; [intros K; apply H1; right; auto|intros K; apply H2; right; auto|intros [u [v E]]; apply H3; exists (c :: u), v; cbn; rewrite E; auto|intros [u [v E]]; apply H4; exists (c :: u), v; cbn; rewrite E; auto]. }
  destruct (Ascii.eqb_spec c "/") as [->|Nc].
  - cbn [app]. rewrite <- I. destruct s as [|e s]; cbn [app] in *; apply run_slash; intros ->.
    + apply H3. exists [], []. reflexivity.
    + apply H4. exists [], []. reflexivity.
    + apply H3. exists [], (s ++ [d]). reflexivity.
    + apply H4. exists [], (s ++ [d]). reflexivity.
  - cbn [app]. rewrite <- I. generalize (s ++ d :: r). intros w. cbn [run]. destruct (Ascii.eqb_spec c nl) as [->|]; [exfalso; apply H1; left; auto|]. destruct (Ascii.eqb_spec c "#") as [->|]; [exfalso; apply H2; left; auto|].
    rewrite (proj2 (Ascii.eqb_neq c "/") Nc). reflexivity.
Qed.
Lemma run_block s r : ~ pair "*" "/" (s ++ ["*"%char]) -> run InBlock (s ++ "*"%char :: "/"%char :: r) = run Out r.
Proof.
  induction s as [|c s IH]; intros H; [reflexivity|]. assert (I : run InBlock (s ++ "*"%char :: "/"%char :: r) = run Out r) by (apply IH; intros [u [v E]]; apply H; exists (c :: u), v; cbn; rewrite E; auto).
  destruct (s ++ "*"%char :: "/"%char :: r) as [|e w] eqn:Ew; [destruct s; discriminate|]. cbn [app]. rewrite Ew. remember (e :: w) as v eqn:Ev. cbn [run]. rewrite Ev at 2.
  destruct (c =c nl); [exact I|]. destruct (Ascii.eqb_spec c "*") as [->|]; [|exact I]. destruct (Ascii.eqb_spec e "/") as [->|]; [|exact I]. exfalso. apply H. subst v.
  destruct s as [|x s]; [discriminate|]. cbn [app] in Ew. injection Ew as -> _. exists [], (s ++ ["*"%char]). reflexivity.
Qed.
Lemma pair_snoc a b s d : d <> b -> ~ pair a b s -> ~ pair a b (s ++ [d]).
Proof.
  intros Hd Hs [u [v E]]. destruct v as [|x v'] using rev_ind.
  - assert (L : s ++ [d] = (u ++ [a]) ++ [b]) by (rewrite <- app_assoc; exact E). apply app_inj_tail in L as [_ ->]. congruence.
  - rewrite app_comm_cons, app_comm_cons, app_assoc in E. apply app_inj_tail in E as [-> _]. apply Hs. exists u, v'. reflexivity.
Qed.
Theorem c56_partial ps : Forall wf ps -> Forall safe ps -> stripComments (concat (map source ps)) = Some (concat (map kept ps)).
Proof.
  intros Hw Hs. rewrite strip_run. f_equal. induction Hw as [|p ps Hp Hw IH]; [reflexivity|]. inversion Hs as [|? ? Sp Hs']; subst. specialize (IH Hs'). cbn [map concat].
  destruct p as [s|s| |s|s|s]; cbn [source kept wf safe app] in *.
  - destruct Hp as (H1 & H2 & H3 & H4). rewrite run_plain by auto. rewrite IH. reflexivity.
  - destruct Sp as (H2 & H3 & H4). rewrite <- !app_assoc. cbn [app run]. change (quote =c nl) with false. change (quote =c "#"%char) with false. change (quote =c "/"%char) with false. cbn iota. f_equal.
    rewrite run_safe; auto; try (apply pair_snoc; auto; discriminate). cbn [run]. change (quote =c nl) with false. change (quote =c "#"%char) with false. change (quote =c "/"%char) with false. cbn iota. rewrite IH. reflexivity.
  - cbn [run]. rewrite Ascii.eqb_refl. exact IH.
  - rewrite <- !app_assoc. cbn. rewrite run_inLine by auto. exact IH.
  - rewrite <- !app_assoc. unfold t. cbn [list_ascii_of_string app run]. change ("/" =c nl)%char with false. change ("/" =c "#")%char with false. change ("/" =c "/")%char with true. cbn iota.
    rewrite run_inLine by auto. exact IH.
  - rewrite <- !app_assoc. unfold t. cbn [list_ascii_of_string app run]. change ("/" =c nl)%char with false. change ("/" =c "#")%char with false. change ("/" =c "/")%char with true. change ("*" =c "/")%char with false. change ("*" =c "*")%char with true. cbn iota.
    rewrite run_block by auto. exact IH.
Qed.
(** It is not enough that the file is well formed: a name with # or // loses its end (and the rest
    of the line). *)
Theorem c56_string_refuted : exists ps, Forall wf ps /\ stripComments (concat (map source ps)) <> Some (concat (map kept ps)) /\
  exists ps', Forall wf ps' /\ ps <> ps' /\ stripComments (concat (map source ps)) = stripComments (concat (map source ps')).
Proof.
  exists [Plain (t "{"); Str (t "restartFile"); Plain (t ":"); Str (t "run#2.h5"); EndLine; Plain (t "}")].
  assert (W : forall ps, Forall wf ps <-> fold_right (fun p q => wf p /\ q) True ps).
  { induction ps as [|p ps IH]; split; intros H; [exact I|constructor|inversion H; subst; split; auto; apply IH; auto|destruct H; constructor; auto; apply IH; auto]. }
  split; [apply W; cbn; intuition discriminate|]. split; [vm_compute; discriminate|].
  exists [Plain (t "{"); Str (t "restartFile"); Plain (t ":"); Str (t "run#3.h5"); EndLine; Plain (t "}")]. split; [apply W; cbn; intuition discriminate|]. split; [discriminate|]. reflexivity.
Qed.
Example c56_ok : let ps := [Plain (t "{"); Str (t "petscArgs"); Slashes (t " old: /* "); Plain (t ": ["); Str (t "a/b*c"); Block (t " # " ++ [nl] ++ t " ** "); Plain (t "]}")] in
  Forall wf ps /\ Forall safe ps /\ stripComments (concat (map source ps)) = Some (concat (map kept ps)).
Proof.
  cbn zeta. assert (P : forall a b s, (fix f (s : text) := match s with x :: s' => match s' with y :: _ => (x =c a) && (y =c b) || f s' | [] => false end | [] => false end) s = false -> ~ pair a b s).
  { intros a b s. induction s as [|x s IH]; intros H [u [v E]]; [destruct u; discriminate|]. destruct u as [|z u]; cbn [app] in E; injection E as -> ->.
    - rewrite !Ascii.eqb_refl in H. discriminate.
    - apply IH; [|exists u, v; auto]. destruct (u ++ a :: b :: v); [reflexivity|]. apply orb_false_iff in H as [_ H]. exact H. }
  repeat split; repeat constructor; cbn [wf safe]; try (cbn; intuition discriminate); try (apply P; reflexivity).
Qed.
Print Assumptions c56_partial.
Print Assumptions c56_string_refuted.
