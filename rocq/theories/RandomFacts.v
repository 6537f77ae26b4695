(** * Proofs about the generators of random Boolean problems *)

From Coq Require Import Ascii String Sorted.
From Verif Require Import Spec Outcome State Base ModelBuild ModelSearch Observe TextSpec ModelText ModelRead EncodeSpec ModelEncode ModelB2f
  Text Read Encode FileUnique B2f ConvertCases Keep RandomSpec ModelRandom.
#[local] Open Scope char_scope.
#[local] Open Scope list_scope.
#[local] Open Scope Z_scope.

(** ** Draws *)

Lemma randint_range w a b k z k' : randint w a b k = Some (z, k') -> a <= z <= b.
Proof.
  unfold randint. destruct (Z.ltb_spec b a); [discriminate|]. intro E. injection E as <- <-.
  pose proof (Z.mod_pos_bound (w k) (b - a + 1) ltac:(lia)). lia.
Qed.

Lemma randint_some w a b k : a <= b -> exists z k', randint w a b k = Some (z, k') /\ a <= z <= b.
Proof.
  intro H. destruct (randint w a b k) as [[z k']|] eqn:E.
  - exists z, k'. split; auto. eapply randint_range; eauto.
  - unfold randint in E. destruct (Z.ltb_spec b a); [lia|discriminate].
Qed.

Lemma collect_some {A B} (f : A -> nat -> option (B * nat)) (R : A -> B -> Prop) :
  (forall x k, exists b k', f x k = Some (b, k') /\ R x b) ->
  forall l k, exists bs k', collect f l k = Some (bs, k') /\ Forall2 R l bs.
Proof.
  intros H l. induction l as [|x l IH]; intro k; cbn [collect]; [exists [], k; auto|].
  destruct (H x k) as (b & k1 & -> & Hb). destruct (IH k1) as (bs & k2 & -> & HR). exists (b :: bs), k2. auto.
Qed.

Lemma collect_in {A B} (f : A -> nat -> option (B * nat)) (R : A -> B -> Prop) : forall l,
  (forall x k, In x l -> exists b k', f x k = Some (b, k') /\ R x b) ->
  forall k, exists bs k', collect f l k = Some (bs, k') /\ Forall2 R l bs.
Proof.
  induction l as [|x l IH]; intros H k; cbn [collect]; [exists [], k; auto|].
  destruct (H x k (or_introl eq_refl)) as (b & k1 & -> & Hb). destruct (IH (fun y j Hy => H y j (or_intror Hy)) k1) as (bs & k2 & -> & HR). exists (b :: bs), k2. auto.
Qed.

(** [g] gives [b] when the next random numbers are [ds]. *)
Definition follows (w : nat -> Z) (k : nat) (ds : list Z) : Prop := forall i, (i < length ds)%nat -> w (k + i)%nat = nth i ds 0.
Definition produces {B} (g : (nat -> Z) -> nat -> option (B * nat)) (b : B) (ds : list Z) : Prop :=
  forall w k, follows w k ds -> g w k = Some (b, (k + length ds)%nat).

Lemma follows_app w k a b : follows w k (a ++ b) -> follows w k a /\ follows w (k + length a)%nat b.
Proof.
  intro H. split; intros i Hi.
  - rewrite H by (rewrite app_length; lia). apply app_nth1. auto.
  - replace (k + length a + i)%nat with (k + (length a + i))%nat by lia. rewrite H by (rewrite app_length; lia).
    rewrite app_nth2 by lia. f_equal. lia.
Qed.

Lemma collect_produces {A B} (f : (nat -> Z) -> A -> nat -> option (B * nat)) : forall l bs,
  Forall2 (fun x b => exists ds, produces (fun w => f w x) b ds) l bs ->
  exists ds, produces (fun w => collect (f w) l) bs ds.
Proof.
  intros l bs H. induction H as [|x b l bs (ds & Hd) H (es & IH)].
  - exists []. intros w k _. cbn [collect length]. rewrite Nat.add_0_r. reflexivity.
  - exists (ds ++ es). intros w k F. apply follows_app in F. destruct F as (F1 & F2). cbn [collect].
    rewrite (Hd w k F1), (IH w _ F2), app_length, Nat.add_assoc. reflexivity.
Qed.

Lemma randint_produces a b z : a <= z <= b -> exists ds, produces (fun w => randint w a b) z ds.
Proof.
  intro H. exists [z - a]. intros w k F. specialize (F 0%nat ltac:(simpl; lia)). simpl in F. rewrite Nat.add_0_r in F.
  unfold randint. rewrite F, Z.mod_small by lia. destruct (Z.ltb_spec b a); [lia|]. simpl length. rewrite Nat.add_1_r. f_equal. f_equal. lia.
Qed.

Lemma run_of (ds : list Z) : exists w, follows w 0 ds.
Proof. exists (fun i => nth i ds 0). intros i _. reflexivity. Qed.

(** ** The text *)

Definition sat_head (n m : Z) : text := txt "p cnf " ++ num n ++ txt " " ++ num m.
Definition sat_line (c : list Z) : text := join (map num c) ++ txt " 0".

Lemma sat_text_lines n m f : sat_text n m f = unlines (sat_head n m :: map sat_line f).
Proof.
  unfold sat_text, sat_head. rewrite unlines_cons, <- !app_assoc. do 4 f_equal. cbn [app]. f_equal.
  rewrite <- unlines_map. f_equal. apply map_ext. intro c. unfold sat_row, sat_line. rewrite <- app_assoc. reflexivity.
Qed.

Lemma sat_head_words n m : words (sat_head n m) = [txt "p"; txt "cnf"; num n; num m].
Proof.
  unfold sat_head. change (txt "p cnf " ++ num n ++ txt " " ++ num m) with (txt "p" ++ SP :: (txt "cnf" ++ SP :: (num n ++ SP :: num m))).
  rewrite words_word by (apply txt_solid; [reflexivity|discriminate]). rewrite words_word by (apply txt_solid; [reflexivity|discriminate]).
  rewrite words_word by apply num_solid. rewrite words_one by apply num_solid. reflexivity.
Qed.

Lemma words_joined ws v : (forall w, In w ws -> solid w) -> solid v -> words (join ws ++ SP :: v) = ws ++ [v].
Proof.
  intros H Hv. induction ws as [|w ws IH].
  - change (words (SP :: v) = [v]). unfold words. cbn [words_from]. change (blank SP) with true. cbn [flush]. apply words_one; auto.
  - assert (Hw : solid w) by (apply H; left; auto). specialize (IH (fun x Hx => H x (or_intror Hx))). destruct ws as [|w2 ws].
    + cbn [join]. rewrite words_word by auto. rewrite words_one by auto. reflexivity.
    + change (join (w :: w2 :: ws)) with (w ++ SP :: join (w2 :: ws)). rewrite <- app_assoc. cbn [app]. rewrite words_word by auto.
      rewrite IH. reflexivity.
Qed.

Lemma sat_line_words c : words (sat_line c) = map num c ++ [txt "0"].
Proof.
  unfold sat_line. change (txt " 0") with (SP :: txt "0"). apply words_joined; [|apply txt_solid; [reflexivity|discriminate]].
  intros w Hw. apply in_map_iff in Hw. destruct Hw as (z & <- & _). apply num_solid.
Qed.

Lemma sat_head_lf n m : ~ In LF (sat_head n m).
Proof. unfold sat_head. repeat apply no_lf_app; try apply num_no_lf; simpl; intuition discriminate. Qed.

Lemma sat_line_lf c : ~ In LF (sat_line c).
Proof.
  unfold sat_line. apply no_lf_app; [|simpl; intuition discriminate]. apply join_no_lf. intros w Hw. apply in_map_iff in Hw.
  destruct Hw as (z & <- & _). apply num_no_lf.
Qed.

Lemma sat_has_lines n m f : has_lines (sat_text n m f) (sat_head n m :: map sat_line f).
Proof.
  split; [|left; apply sat_text_lines]. intros l [<-|Hl]; [apply sat_head_lf|]. apply in_map_iff in Hl.
  destruct Hl as (c & <- & _). apply sat_line_lf.
Qed.

Lemma sat_rows f : Forall2 (fun c l => words l = map num c ++ [txt "0"]) f (map sat_line f).
Proof. induction f as [|c f IH]; constructor; auto. apply sat_line_words. Qed.

Lemma sat_bool_file n m f : Z.of_nat (length f) = m -> bool_file n f (sat_text n m f).
Proof.
  intro L. exists (sat_head n m :: map sat_line f), (sat_head n m), (map sat_line f). split; [apply sat_has_lines|]. split; [|split; [|split]].
  - cbn [filter]. change (is_comment (sat_head n m)) with false. cbn [negb]. f_equal. clear L. induction f as [|c f IH]; auto. cbn [map filter].
    destruct (row_chars c _ (sat_line_words c)) as (_ & a & r & E & N & _). rewrite E. cbn [is_comment].
    destruct (Ascii.eqb_spec a "c"); [congruence|]. cbn [negb]. f_equal. apply IH.
  - eexists. reflexivity.
  - rewrite L. apply sat_head_words.
  - apply sat_rows.
Qed.

(** ** Lengths *)

Lemma sat_line_length c : (forall z, In z c -> 1 <= Z.abs z <= int_max) -> (length (sat_line c) <= 12 * length c + 2)%nat.
Proof.
  intro H. unfold sat_line. rewrite app_length. change (length (txt " 0")) with 2%nat.
  assert (G : (length (join (map num c)) <= 12 * length c)%nat); [|lia].
  induction c as [|z c IH]; [simpl; lia|]. specialize (IH (fun x Hx => H x (or_intror Hx))).
  assert (Hz : (length (num z) <= 11)%nat).
  { pose proof (num_length_int (Z.abs z) ltac:(specialize (H z (or_introl eq_refl)); lia)) as P. destruct z as [|q|q].
    - simpl. lia.
    - simpl Z.abs in P. lia.
    - change (Z.abs (Z.neg q)) with (Z.pos q) in P. rewrite num_pos in P. rewrite num_neg. simpl length. lia. }
  cbn [map]. destruct (map num c) as [|w ws] eqn:E.
  - cbn [join length]. lia.
  - change (join (num z :: w :: ws)) with (num z ++ SP :: join (w :: ws)). rewrite app_length. cbn [length]. lia.
Qed.

Lemma sat_head_length n m : 0 <= n <= int_max -> 0 <= m <= int_max -> (length (sat_head n m) <= 27)%nat.
Proof.
  intros Hn Hm. unfold sat_head. rewrite !app_length. pose proof (num_length_int n Hn). pose proof (num_length_int m Hm).
  change (length (txt "p cnf ")) with 6%nat. change (length (txt " ")) with 1%nat. lia.
Qed.

(** ** The conversion *)

Lemma b2f_blank_row s : b2f_line s [] = Ok (mkB2f (b_vars s) (b_data s ++ [[]]) (b_out s)).
Proof. reflexivity. Qed.

Lemma b2f_sat_rows : forall f s, (forall c z, In c f -> In z c -> 1 <= Z.abs z <= int_max) ->
  foldM b2f_line (map sat_line f) s =
    Ok (mkB2f (inserts (List.concat (map (fun c => map Z.abs c ++ [0]) f)) (b_vars s)) (b_data s ++ f) (b_out s)).
Proof.
  induction f as [|c f IH]; intros s H; cbn [map foldM List.concat].
  - rewrite app_nil_r. destruct s; reflexivity.
  - rewrite (b2f_row s c _ (sat_line_words c)) by (intros; apply (H c); auto; left; auto). cbn [bind].
    rewrite IH by (intros; eapply H; [right|]; eauto). cbn [b_vars b_data b_out]. rewrite (inserts_app (map Z.abs c ++ [0])), <- app_assoc. reflexivity.
Qed.

(** The converted file when there are lines without literals: [tail] is what follows the lines of
    the clauses, nothing or a blank line. *)
Theorem b2f_blank n m f tail : 0 <= n <= int_max -> 0 <= m <= int_max -> f <> [] ->
  (forall c z, In c f -> In z c -> 1 <= Z.abs z <= int_max) -> (forall c, In c f -> Z.of_nat (length (sat_line c)) < 1500) ->
  tail = [] /\ In [] f \/ tail = [LF] ->
  exists t' ls, boolean2finite (sat_text n m f ++ tail) = Ok t' /\ has_lines t' ls /\ lines_below 3000 t' /\ In [] ls.
Proof.
  intros Hn Hm NE HI HS T.
  set (g := match tail with [] => f | _ => f ++ [[]] end).
  set (rows := sat_head n m :: map sat_line f ++ match tail with [] => [] | _ => [[]] end).
  assert (HR : has_lines (sat_text n m f ++ tail) rows).
  { destruct (sat_has_lines n m f) as (N & _). unfold rows. destruct T as [(-> & _)| ->].
    - rewrite !app_nil_r. apply sat_has_lines.
    - split.
      + intros l [<-|Hl]; [apply sat_head_lf|]. apply in_app_or in Hl. destruct Hl as [Hl|[<-|[]]]; [apply N; right; auto|simpl; auto].
      + left. rewrite sat_text_lines, !unlines_cons, unlines_app, <- !app_assoc. reflexivity. }
  assert (SR : forall l, In l rows -> Z.of_nat (length l) < 1500).
  { intros l [<-|Hl]; [pose proof (sat_head_length n m Hn Hm); lia|]. apply in_app_or in Hl. destruct Hl as [Hl|Hl].
    - apply in_map_iff in Hl. destruct Hl as (c & <- & Hc). auto.
    - destruct T as [(-> & _)| ->]; [destruct Hl|]. destruct Hl as [<-|[]]. simpl. lia. }
  assert (Ig : forall c, In c g -> In c f \/ c = []).
  { unfold g. intros c Hc. destruct tail; auto. apply in_app_or in Hc. destruct Hc as [Hc|[<-|[]]]; auto. }
  assert (Ng : In [] g).
  { unfold g. destruct T as [(-> & H)| ->]; auto. apply in_or_app. right. left. auto. }
  set (V := inserts (List.concat (map (fun c => map Z.abs c ++ [0]) f)) []).
  assert (E : foldM b2f_line rows (mkB2f [] [] []) = Ok (mkB2f V g (sat_head n m ++ [LF]))).
  { unfold rows. cbn [foldM].
    assert (EH : b2f_line (mkB2f [] [] []) (sat_head n m) = Ok (mkB2f [] [] (sat_head n m ++ [LF]))).
    { unfold b2f_line. rewrite cstr_id; [reflexivity|]. apply (line_no_nul _ _ (sat_head_words n m)).
      intros w [<-|[<-|[<-|[<-|[]]]]]; try apply num_no_nul; simpl; intuition discriminate. }
    rewrite EH. cbn [bind]. rewrite foldM_app, b2f_sat_rows by auto. cbn [bind b_vars b_data b_out app]. unfold g.
    destruct T as [(-> & _)| ->]; cbn [foldM bind]; [reflexivity|]. rewrite b2f_blank_row. reflexivity. }
  assert (HV : exists vs, V = 0 :: vs /\ forall v, In v vs -> 0 <= v <= int_max).
  { assert (S : StronglySorted Z.lt V) by (apply sorted_inserts; constructor).
    assert (B : forall v, In v V -> 0 <= v <= int_max).
    { intros v Hv. unfold V in Hv. rewrite in_inserts, in_concat in Hv. destruct Hv as [(y & Hy & Hv)|[]]. apply in_map_iff in Hy. destruct Hy as (c & <- & Hc).
      apply in_app_or in Hv. destruct Hv as [Hv|[<-|[]]]; [|vm_compute; split; discriminate]. apply in_map_iff in Hv. destruct Hv as (z & <- & Hz). specialize (HI c z Hc Hz). lia. }
    assert (Z0 : In 0 V).
    { unfold V. rewrite in_inserts, in_concat. left. destruct f as [|c f]; [congruence|]. exists (map Z.abs c ++ [0]). split; [left; auto|]. apply in_or_app. right. left. auto. }
    destruct V as [|v vs]; [destruct Z0|]. exists vs. inversion S as [|a b S' F]; subst. rewrite Forall_forall in F. split.
    - destruct Z0 as [->|Z0]; auto. specialize (F 0 Z0). specialize (B v (or_introl eq_refl)). lia.
    - intros x Hx. apply B. right. auto. }
  destruct HV as (vs & EV & Bv).
  set (L := sat_head n m :: map dom_row vs ++ map fin_row g).
  assert (HL : has_lines (unlines L) L).
  { split; [|left; auto]. unfold L. intros l [<-|Hl]; [apply sat_head_lf|]. apply in_app_or in Hl. destruct Hl as [Hl|Hl]; apply in_map_iff in Hl.
    - destruct Hl as (v & <- & _). unfold dom_row. apply no_lf_app; [simpl; intuition discriminate|]. apply no_lf_app; [apply num_no_lf|simpl; intuition discriminate].
    - destruct Hl as (c & <- & _). unfold fin_row. apply in_row_lf. intros w Hw. apply in_map_iff in Hw. destruct Hw as (x & <- & _). apply lit_no_lf. }
  exists (unlines L), L. split; [|split; [exact HL|split]].
  - unfold boolean2finite. rewrite (getlines_has _ _ HR) by (intros l Hl; specialize (SR l Hl); unfold short; lia). rewrite E. cbn [bind b_vars b_data b_out].
    rewrite EV. cbn [b2f_domains bind]. f_equal. unfold L. rewrite unlines_cons, unlines_app, <- !app_assoc. f_equal. cbn [app]. f_equal. f_equal.
    + rewrite <- unlines_map. f_equal. apply map_ext. intro v. unfold dom_row. rewrite <- !app_assoc. reflexivity.
    + rewrite <- unlines_map. f_equal. apply map_ext_in. intros c Hc. apply b2f_clause_row. intros z Hz. destruct (Ig c Hc) as [Hc'| ->]; [|destruct Hz].
      specialize (HI c z Hc' Hz). lia.
  - eapply lines_below_intro; [exact HL|]. unfold L. intros l [<-|Hl]; [pose proof (sat_head_length n m Hn Hm); lia|].
    apply in_app_or in Hl. destruct Hl as [Hl|Hl]; apply in_map_iff in Hl.
    + destruct Hl as (v & <- & Hv). unfold dom_row. rewrite !app_length. pose proof (num_length_int v (Bv v Hv)).
      change (length (txt "d ")) with 2%nat. change (length (txt " 2")) with 2%nat. lia.
    + destruct Hl as (c & <- & Hc). destruct (Ig c Hc) as [Hc'| ->]; [|simpl; lia].
      pose proof (fin_row_length c _ (sat_line_words c)). specialize (HS c Hc'). lia.
  - unfold L. right. apply in_or_app. right. apply in_map_iff. exists []. auto.
Qed.

(** ** fixed_clauses.py *)

Lemma forall2_length {A B} (R : A -> B -> Prop) l l' : Forall2 R l l' -> length l = length l'.
Proof. induction 1; simpl; auto. Qed.

Lemma forall2_right {A B} (R : A -> B -> Prop) l l' : Forall2 R l l' -> forall y, In y l' -> exists x, In x l /\ R x y.
Proof. induction 1 as [|a b l l' H HH IH]; intros y Hy; [destruct Hy|]. destruct Hy as [<-|Hy]; [exists a; split; [left|]; auto|]. destruct (IH y Hy) as (x & Hx & K). exists x. split; [right|]; auto. Qed.

Lemma fixed_clause_some w n len k : 1 <= n -> 0 <= len ->
  exists c k', fixed_clause w n len k = Some (c, k') /\ Z.of_nat (length c) = len /\ forall z, In z c -> 1 <= Z.abs z <= n.
Proof.
  intros Hn Hl. unfold fixed_clause.
  destruct (collect_some (fun _ : Z => randint w 1 n) (fun _ z => 1 <= z <= n) (fun _ k => randint_some w 1 n k Hn) (loop 0 len) k) as (vs & k1 & -> & F1).
  destruct (collect_some (fun x k => match randint w 1 2 k with None => None | Some (flip, k) => Some (if flip =? 1 then - x else x, k) end)
              (fun x z => z = x \/ z = - x)) with (l := vs) (k := k1) as (c & k2 & -> & F2).
  { intros x j. destruct (randint_some w 1 2 j ltac:(lia)) as (b & j' & -> & _). eexists _, _. split; [reflexivity|]. destruct (b =? 1); auto. }
  exists c, k2. split; auto. split.
  - rewrite <- (forall2_length _ _ _ F2), <- (forall2_length _ _ _ F1), loop_length. lia.
  - intros z Hz. destruct (forall2_right _ _ _ F2 z Hz) as (x & Hx & Ez). destruct (forall2_right _ _ _ F1 x Hx) as (_ & _ & R). destruct Ez; subst; lia.
Qed.

Lemma fixed_formula_some w n m len : 1 <= n -> 0 <= m -> 0 <= len ->
  exists f, fixed_formula w n m len = Some f /\ fixed_shape n m len f.
Proof.
  intros Hn Hm Hl. unfold fixed_formula.
  destruct (collect_some (fun _ : Z => fixed_clause w n len) (fun _ c => Z.of_nat (length c) = len /\ forall z, In z c -> 1 <= Z.abs z <= n)
              (fun _ k => fixed_clause_some w n len k Hn Hl) (loop 0 m) 0%nat) as (f & k & -> & F).
  exists f. split; auto. split.
  - rewrite <- (forall2_length _ _ _ F), loop_length. lia.
  - intros c Hc. destruct (forall2_right _ _ _ F c Hc) as (_ & _ & R). auto.
Qed.

Lemma fixed_clause_produces n len c : Z.of_nat (length c) = len -> (forall z, In z c -> 1 <= Z.abs z <= n) ->
  exists ds, produces (fun w => fixed_clause w n len) c ds.
Proof.
  intros L H.
  assert (P1 : exists ds, produces (fun w => collect (fun _ : Z => randint w 1 n) (loop 0 len)) (map Z.abs c) ds).
  { apply (collect_produces (fun w (_ : Z) => randint w 1 n)). assert (LL : length (loop 0 len) = length c) by (rewrite loop_length; lia).
    revert LL H. generalize (loop 0 len). clear. induction c as [|z c IH]; intros [|x l] LL H; try discriminate LL; constructor.
    - apply randint_produces. apply H. left. auto.
    - apply IH; [simpl in LL; lia|]. intros; apply H; right; auto. }
  assert (P2 : exists ds, produces (fun w => collect (fun x k => match randint w 1 2 k with None => None | Some (flip, k) => Some (if flip =? 1 then - x else x, k) end) (map Z.abs c)) c ds).
  { apply (collect_produces (fun w x k => match randint w 1 2 k with None => None | Some (flip, k) => Some (if flip =? 1 then - x else x, k) end)).
    clear P1 L. induction c as [|z c IH]; constructor; [|apply IH; intros; apply H; right; auto].
    destruct (randint_produces 1 2 (if z <? 0 then 1 else 2)) as (ds & P); [destruct (z <? 0); lia|]. exists ds. intros w k F. rewrite (P w k F).
    destruct (Z.ltb_spec z 0); cbn; do 2 f_equal; lia. }
  destruct P1 as (ds & P1), P2 as (es & P2). exists (ds ++ es). intros w k F. apply follows_app in F. destruct F as (F1 & F2).
  unfold fixed_clause. rewrite (P1 w k F1), (P2 w _ F2), app_length, Nat.add_assoc. reflexivity.
Qed.

Theorem fixed_all n m len f : fixed_shape n m len f -> exists w, fixed_formula w n m len = Some f.
Proof.
  intros (L & H). destruct (collect_produces (fun w (_ : Z) => fixed_clause w n len) (loop 0 m) f) as (ds & P).
  { assert (LL : length (loop 0 m) = length f) by (rewrite loop_length; lia). revert LL H. generalize (loop 0 m). clear.
    induction f as [|c f IH]; intros [|x l] LL H; try discriminate LL; constructor.
    - destruct (H c (or_introl eq_refl)) as (H1 & H2). apply fixed_clause_produces; auto.
    - apply IH; [simpl in LL; lia|]. intros; apply H; right; auto. }
  destruct (run_of ds) as (w & F). exists w. unfold fixed_formula. rewrite (P w 0%nat F). reflexivity.
Qed.

Theorem fixed_error w n m len : n < 1 -> 1 <= m -> 1 <= len -> fixed_formula w n m len = None.
Proof.
  intros Hn Hm Hl. unfold fixed_formula. rewrite loop_cons by lia. cbn [collect]. unfold fixed_clause at 1. rewrite loop_cons by lia. cbn [collect].
  unfold randint at 1. destruct (Z.ltb_spec n 1); [reflexivity|lia].
Qed.

(** ** constant_probability.py *)

Definition constant_step (w : nat -> Z) (i : Z) (k : nat) : option (list Z * nat) :=
  match randint w 1 2 k with
  | None => None
  | Some (flip_coin, k) =>
      if flip_coin =? 1 then
        match randint w 1 2 k with
        | None => None
        | Some (flip_more, k) => Some ([if flip_more =? 1 then - i else i], k)
        end
      else Some ([], k)
  end.

Lemma constant_step_some w i k : exists p k', constant_step w i k = Some (p, k') /\ (p = [] \/ p = [i] \/ p = [- i]).
Proof.
  unfold constant_step. destruct (randint_some w 1 2 k ltac:(lia)) as (a & k1 & -> & _). destruct (a =? 1); [|eauto 6].
  destruct (randint_some w 1 2 k1 ltac:(lia)) as (b & k2 & -> & _). eexists _, _. split; [reflexivity|]. destruct (b =? 1); auto.
Qed.

Lemma parts_sorted : forall j i parts, Forall2 (fun i p => p = [] \/ p = [i] \/ p = [- i]) (loop i (i + Z.of_nat j)) parts -> 1 <= i ->
  StronglySorted (fun x y => Z.abs x < Z.abs y) (List.concat parts) /\ forall z, In z (List.concat parts) -> i <= Z.abs z < i + Z.of_nat j.
Proof.
  induction j as [|j IH]; intros i parts F Hi.
  - rewrite loop_empty in F by lia. inversion F; subst. split; [constructor|intros z []].
  - rewrite loop_cons in F by lia. replace (i + Z.of_nat (S j)) with (i + 1 + Z.of_nat j) in * by lia. inversion F as [|x p l ps Hp F']; subst.
    destruct (IH (i + 1) ps F' ltac:(lia)) as (S & B).
    assert (G : forall z, Z.abs z = i -> StronglySorted (fun x y => Z.abs x < Z.abs y) (z :: List.concat ps)).
    { intros z Hz. constructor; auto. rewrite Forall_forall. intros y Hy. specialize (B y Hy). lia. }
    destruct Hp as [->|[->| ->]]; cbn [List.concat app].
    + split; auto. intros z Hz. specialize (B z Hz). lia.
    + split; [apply G; lia|]. intros z [<-|Hz]; [lia|]. specialize (B z Hz). lia.
    + split; [apply G; lia|]. intros z [<-|Hz]; [lia|]. specialize (B z Hz). lia.
Qed.

Lemma constant_clause_some w n k : 0 <= n -> exists c k', constant_clause w n k = Some (c, k') /\
  StronglySorted (fun x y => Z.abs x < Z.abs y) c /\ forall z, In z c -> 1 <= Z.abs z <= n.
Proof.
  intro Hn. unfold constant_clause. fold (constant_step w).
  destruct (collect_some (constant_step w) _ (constant_step_some w) (loop 1 (n + 1)) k) as (ps & k' & -> & F).
  exists (List.concat ps), k'. split; auto. replace (n + 1) with (1 + Z.of_nat (Z.to_nat n)) in F by lia.
  destruct (parts_sorted _ _ _ F ltac:(lia)) as (S & B). split; auto. intros z Hz. specialize (B z Hz). lia.
Qed.

Lemma variables_counted f : variables_count f (Z.of_nat (length (variables_in f))).
Proof.
  exists (variables_in f). split; [apply NoDup_nodup|]. split; auto. intro x. unfold occurs, variables_in. rewrite nodup_In, in_map_iff. split.
  - intros (z & E & Hz). apply in_concat in Hz. destruct Hz as (c & Hc & Hz). eauto.
  - intros (c & z & Hc & Hz & E). exists z. split; auto. apply in_concat. eauto.
Qed.

Theorem constant_some w n m : 0 <= n -> 1 <= m ->
  exists f v, constant_dimacs w n m = Some (sat_text n m f, v) /\ constant_shape n m f /\ variables_count f v.
Proof.
  intros Hn Hm. unfold constant_dimacs.
  destruct (collect_some (fun _ : Z => constant_clause w n) _ (fun _ k => constant_clause_some w n k Hn) (loop 1 (m + 1)) 0%nat) as (f & k & -> & F).
  destruct (Z.eqb_spec m 0); [lia|]. exists f, (Z.of_nat (length (variables_in f))). split; [reflexivity|]. split; [split|].
  - rewrite <- (forall2_length _ _ _ F), loop_length. lia.
  - intros c Hc. destruct (forall2_right _ _ _ F c Hc) as (_ & _ & R). auto.
  - apply variables_counted.
Qed.

Lemma sorted_parts : forall j i c, StronglySorted (fun x y => Z.abs x < Z.abs y) c -> 1 <= i -> (forall z, In z c -> i <= Z.abs z < i + Z.of_nat j) ->
  exists parts, Forall2 (fun i p => p = [] \/ p = [i] \/ p = [- i]) (loop i (i + Z.of_nat j)) parts /\ List.concat parts = c.
Proof.
  induction j as [|j IH]; intros i c S Hi B.
  - rewrite loop_empty by lia. exists []. split; [constructor|]. destruct c as [|z c]; auto. specialize (B z (or_introl eq_refl)). lia.
  - rewrite loop_cons by lia. replace (i + Z.of_nat (Datatypes.S j)) with (i + 1 + Z.of_nat j) in * by lia.
    assert (D : (exists z c', c = z :: c' /\ Z.abs z = i) \/ forall z, In z c -> i + 1 <= Z.abs z).
    { destruct c as [|z c]; [right; intros z []|]. inversion S as [|a b S' F]; subst. rewrite Forall_forall in F.
      destruct (Z.eq_dec (Z.abs z) i) as [E|E]; [left; eauto|right]. pose proof (B z (or_introl eq_refl)). intros y [<-|Hy]; [lia|]. specialize (F y Hy). lia. }
    destruct D as [(z & c' & -> & E)|D].
    + inversion S as [|a b S' F]; subst. rewrite Forall_forall in F.
      destruct (IH (Z.abs z + 1) c' S' ltac:(lia)) as (ps & P1 & P2).
      { intros y Hy. specialize (F y Hy). specialize (B y (or_intror Hy)). lia. }
      exists ([z] :: ps). split; [constructor; auto; right; destruct (Z.abs_eq_or_opp z) as [E|E]; [left|right]; f_equal; lia|]. cbn [List.concat app]. congruence.
    + destruct (IH (i + 1) c S ltac:(lia)) as (ps & P1 & P2); [intros y Hy; specialize (D y Hy); specialize (B y Hy); lia|].
      exists ([] :: ps). split; [constructor; auto|]. exact P2.
Qed.

Lemma constant_step_produces i p : p = [] \/ p = [i] \/ p = [- i] -> exists ds, produces (fun w => constant_step w i) p ds.
Proof.
  destruct (randint_produces 1 2 1 ltac:(lia)) as (d1 & P1). destruct (randint_produces 1 2 2 ltac:(lia)) as (d2 & P2).
  intros [->|[->| ->]].
  - exists d2. intros w k F. unfold constant_step. rewrite (P2 w k F). reflexivity.
  - exists (d1 ++ d2). intros w k F. apply follows_app in F. destruct F as (F1 & F2). unfold constant_step.
    rewrite (P1 w k F1). cbn [Z.eqb Pos.eqb]. rewrite (P2 w _ F2), app_length, Nat.add_assoc. reflexivity.
  - exists (d1 ++ d1). intros w k F. apply follows_app in F. destruct F as (F1 & F2). unfold constant_step.
    rewrite (P1 w k F1). cbn [Z.eqb Pos.eqb]. rewrite (P1 w _ F2), app_length, Nat.add_assoc. reflexivity.
Qed.

Theorem constant_all n m f : 0 <= n -> 1 <= m -> constant_shape n m f -> exists w v, constant_dimacs w n m = Some (sat_text n m f, v).
Proof.
  intros Hn Hm (L & H). destruct (collect_produces (fun w (_ : Z) => constant_clause w n) (loop 1 (m + 1)) f) as (ds & P).
  { assert (LL : length (loop 1 (m + 1)) = length f) by (rewrite loop_length; lia). revert LL H. generalize (loop 1 (m + 1)). clear -Hn.
    induction f as [|c f IH]; intros [|x l] LL H; try discriminate LL; constructor.
    - destruct (H c (or_introl eq_refl)) as (H1 & H2).
      destruct (sorted_parts (Z.to_nat n) 1 c H1 ltac:(lia)) as (ps & F & E); [intros z Hz; specialize (H2 z Hz); lia|].
      replace (1 + Z.of_nat (Z.to_nat n)) with (n + 1) in F by lia.
      destruct (collect_produces constant_step (loop 1 (n + 1)) ps) as (ds & P).
      { clear -F. induction F; constructor; auto. apply constant_step_produces; auto. }
      exists ds. intros w k Fw. unfold constant_clause. fold (constant_step w). rewrite (P w k Fw), E. reflexivity.
    - apply IH; [simpl in LL; lia|]. intros; apply H; right; auto. }
  destruct (run_of ds) as (w & F). exists w. eexists. unfold constant_dimacs. rewrite (P w 0%nat F). destruct (Z.eqb_spec m 0); [lia|reflexivity].
Qed.

(** ** Corollaries *)

Lemma fixed_bool_cnf n m len f : fixed_shape n m len f -> 1 <= len -> (forall v, 1 <= v <= n -> occurs f v) -> bool_cnf n f.
Proof.
  intros (L & H) Hl O. split; [|exact O]. intros c Hc. destruct (H c Hc) as (Lc & Hz). split; auto. intros ->. simpl in Lc. lia.
Qed.

Lemma fixed_lines n m f k : fixed_shape n m 3 f -> 0 <= n <= int_max -> 0 <= m <= int_max -> 40 <= k -> lines_below k (sat_text n m f).
Proof.
  intros (L & H) Hn Hm Hk. eapply lines_below_intro; [apply sat_has_lines|]. intros l [<-|Hl]; [pose proof (sat_head_length n m Hn Hm); lia|].
  apply in_map_iff in Hl. destruct Hl as (c & <- & Hc). destruct (H c Hc) as (Lc & Hz). pose proof (sat_line_length c ltac:(intros z HH; specialize (Hz z HH); lia)). lia.
Qed.

(** What a solver can say about a file with a blank line. *)
Definition spoiled (t : text) : Prop :=
  (forall fuel m c clk r rep s, solve_file fuel m c clk r t = Ok (rep, s) -> r_verdict rep = SAT -> r_verified rep = Some false) /\
  (forall fuel m c clk r x, watch c = true -> solve_file fuel m c clk r t <> Ok x).

Lemma blank_spoiled t ls : has_lines t ls -> lines_below 3000 t -> In [] ls -> spoiled t.
Proof.
  intros HL LB I. split; intros.
  - eapply blank_unverified; eauto.
  - eapply blank_watched; eauto.
Qed.

Theorem fixed_spoiled n m f : fixed_shape n m 3 f -> 1 <= n <= int_max -> 1 <= m <= int_max ->
  exists t', boolean2finite (sat_text n m f ++ [LF]) = Ok t' /\ spoiled t'.
Proof.
  intros (L & H) Hn Hm. destruct (b2f_blank n m f [LF]) as (t' & ls & E & HL & LB & I); try lia.
  - intros ->. simpl in L. lia.
  - intros c z Hc Hz. destruct (H c Hc) as (_ & B). specialize (B z Hz). lia.
  - intros c Hc. destruct (H c Hc) as (Lc & B). pose proof (sat_line_length c ltac:(intros z HH; specialize (B z HH); lia)). lia.
  - right. reflexivity.
  - exists t'. split; auto. eapply blank_spoiled; eauto.
Qed.

Theorem constant_spoiled n m f : constant_shape n m f -> 0 <= n <= int_max -> 1 <= m <= int_max -> lines_below 1500 (sat_text n m f) -> In [] f ->
  exists t', boolean2finite (sat_text n m f) = Ok t' /\ spoiled t'.
Proof.
  intros (L & H) Hn Hm LB1 I0. destruct (b2f_blank n m f []) as (t' & ls & E & HL & LB & I); try lia.
  - intros ->. destruct I0.
  - intros c z Hc Hz. destruct (H c Hc) as (_ & B). specialize (B z Hz). lia.
  - intros c Hc. apply (LB1 _ (sat_has_lines n m f)). right. apply in_map. auto.
  - left. auto.
  - rewrite app_nil_r in E. exists t'. split; auto. eapply blank_spoiled; eauto.
Qed.
