(** * The benchmark programs: finite-domain problems *)

From Coq Require Import Ascii String Permutation.
From Verif Require Import Spec Outcome State TextSpec ModelText ModelRead EncodeSpec ModelEncode Text Read Encode EncodeMore FileUnique BenchSpec ModelBench.
#[local] Open Scope char_scope.
#[local] Open Scope list_scope.
#[local] Open Scope Z_scope.

(** ** Problems made of clauses with two negative literals *)

Definition qclause (q : Z * Z * Z * Z) : clause := let '(x, d, y, e) := q in [mkLit x d false; mkLit y e false].
Definition qline (q : Z * Z * Z * Z) : text := let '(x, d, y, e) := q in ne_line x d y e.
Definition qproblem (n D : Z) (qs : list (Z * Z * Z * Z)) : problem := mkProblem (repeat D (Z.to_nat n)) (map qclause qs).
Definition qfine (n D : Z) (q : Z * Z * Z * Z) : Prop :=
  let '(x, d, y, e) := q in 1 <= x <= n /\ 1 <= y <= n /\ 0 <= d < D /\ 0 <= e < D.

Lemma qdomsize n D qs x : 1 <= x <= n -> domsize (qproblem n D qs) x = D.
Proof.
  intro H. unfold domsize. rewrite (proj2 (Z.leb_le 1 x)) by lia. cbn [doms qproblem].
  rewrite (nth_indep _ 0 D) by (rewrite repeat_length; lia). apply nth_repeat.
Qed.

Lemma qnvars n D qs : 0 <= n -> nvars (qproblem n D qs) = n.
Proof. intro H. unfold nvars. cbn [doms qproblem]. rewrite repeat_length. lia. Qed.

Lemma qwf n D qs : 0 <= n -> 2 <= D -> (forall q, In q qs -> qfine n D q) -> wf (qproblem n D qs).
Proof.
  intros Hn HD H. split.
  - intros d Hd. apply repeat_spec in Hd. lia.
  - intros c Hc. apply in_map_iff in Hc. destruct Hc as ((((x & d) & y) & e) & <- & Hq). specialize (H _ Hq). cbn in H.
    split; [discriminate|]. intros l [<-|[<-|[]]]; unfold wf_lit; cbn [lvar lval]; rewrite qnvars, qdomsize by lia; lia.
Qed.

Lemma qno_repeats n D qs : (forall x d y e, In (x, d, y, e) qs -> x <> y) -> no_repeats (qproblem n D qs).
Proof.
  intros H c Hc. apply in_map_iff in Hc. destruct Hc as ((((x & d) & y) & e) & <- & Hq). specialize (H _ _ _ _ Hq). cbn.
  constructor; [|constructor; auto; constructor]. intros [E|[]]. congruence.
Qed.

Lemma qdescribes n D qs (good : assignment -> Prop) : 0 <= n ->
  (forall a, (forall x, 1 <= x <= n -> 0 <= a x < D) ->
     (good a <-> forall x d y e, In (x, d, y, e) qs -> ~ (a x = d /\ a y = e))) ->
  describes (qproblem n D qs) n D good.
Proof.
  intros Hn G. split; [apply qnvars; auto|]. split; [intros x Hx; apply repeat_spec in Hx; auto|]. intro a.
  assert (L : legal (qproblem n D qs) a <-> forall x, 1 <= x <= n -> 0 <= a x < D).
  { unfold legal. rewrite qnvars by auto. split; intros H x Hx; specialize (H x Hx); rewrite qdomsize in * by auto; auto. }
  unfold is_model. rewrite L. split; intros (H1 & H2); split; auto.
  - apply G; auto. intros x d y e Hq (E1 & E2). destruct (H2 (qclause (x, d, y, e))) as (l & [<-|[<-|[]]] & Q).
    { cbn [clauses qproblem]. apply in_map. auto. } { apply Q; auto. } { apply Q; auto. }
  - intros c Hc. cbn [clauses qproblem] in Hc. apply in_map_iff in Hc. destruct Hc as ((((x & d) & y) & e) & <- & Hq).
    rewrite G in H2 by auto. specialize (H2 _ _ _ _ Hq). cbn [qclause].
    destruct (Z.eq_dec (a x) d) as [E|N]; [|exists (mkLit x d false); split; [left|]; auto].
    exists (mkLit y e false). split; [right; left; auto|]. intro E'. auto.
Qed.

Lemma qfits n D qs : 0 <= n <= int_max -> D <= int_max -> Z.of_nat (length qs) <= int_max -> fits_int (qproblem n D qs).
Proof.
  intros Hn HD Hq. split; [rewrite qnvars; lia|]. split; [cbn [clauses qproblem]; rewrite map_length; auto|].
  intros d Hd. apply repeat_spec in Hd. lia.
Qed.

(** ** Lines *)

Lemma qline_join q : qline q = join (map lit_text (qclause q) ++ [txt "0"]).
Proof.
  destruct q as (((x & d) & y) & e). unfold qline, ne_line, lit_text. cbn [qclause map lvar lval leq app join].
  rewrite <- !app_assoc. reflexivity.
Qed.

Lemma qline_line q : clause_line (qclause q) (qline q).
Proof.
  unfold clause_line. rewrite qline_join. apply words_join. intros w Hw. apply in_app_or in Hw.
  destruct Hw as [Hw|[<-|[]]]; [|apply txt_solid; [reflexivity|discriminate]].
  apply in_map_iff in Hw. destruct Hw as (l & <- & _). apply lit_solid.
Qed.

Lemma qline_no_lf q : ~ In LF (qline q).
Proof.
  rewrite qline_join. apply join_no_lf. intros w Hw. apply in_app_or in Hw.
  destruct Hw as [Hw|[<-|[]]]; [|cbn; intuition discriminate]. apply in_map_iff in Hw. destruct Hw as (l & <- & _). apply lit_no_lf.
Qed.

Lemma qline_kind q : is_comment (qline q) = false /\ is_problem (qline q) = false.
Proof.
  pose proof (open_chars (qclause q) (qline q) (or_intror (qline_line q))) as H. destruct (qline q) as [|a l]; auto.
  destruct (clause_char_ok a (H a (or_introl eq_refl))) as (_ & H1 & H2 & _). cbn.
  split; apply Ascii.eqb_neq; auto.
Qed.

Lemma qline_short n D q : qfine n D q -> n <= int_max -> D <= int_max -> Z.of_nat (length (qline q)) < 3000.
Proof.
  destruct q as (((x & d) & y) & e). cbn [qfine qline]. intros H Hn HD. unfold ne_line. rewrite !app_length. cbn [txt list_ascii_of_string length].
  pose proof (num_length_int x ltac:(lia)). pose proof (num_length_int y ltac:(lia)).
  pose proof (num_length_int d ltac:(lia)). pose proof (num_length_int e ltac:(lia)). lia.
Qed.

Definition dline (D i : Z) : text := txt "d " ++ num i ++ txt " " ++ num D.
Definition hline (n m : Z) : text := txt "p cnf " ++ num n ++ txt " " ++ num m.

Lemma dline_line D i : domain_line i D (dline D i).
Proof.
  split; [eexists; reflexivity|]. change (dline D i) with (join [txt "d"; num i; num D]). apply words_join.
  intros w [<-|[<-|[<-|[]]]]; try apply num_solid. apply txt_solid; [reflexivity|discriminate].
Qed.

Lemma dline_lines D n : 0 <= n -> domain_lines 1 (repeat D (Z.to_nat n)) (map (dline D) (loop 1 (n + 1))).
Proof.
  assert (G : forall k i, domain_lines i (repeat D k) (map (dline D) (loop i (i + Z.of_nat k)))).
  { induction k as [|k IH]; intro i.
    - unfold loop. replace (Z.to_nat _) with 0%nat by lia. exact I.
    - rewrite loop_cons by lia. cbn [repeat map domain_lines]. split; [apply dline_line|].
      replace (i + Z.of_nat (S k)) with (i + 1 + Z.of_nat k) by lia. apply IH. }
  intro Hn. specialize (G (Z.to_nat n) 1). rewrite Z2Nat.id in G by auto. replace (1 + n) with (n + 1) in G by lia. exact G.
Qed.

Lemma dline_no_lf D i : ~ In LF (dline D i).
Proof. unfold dline. repeat apply no_lf_app; try apply num_no_lf; cbn; intuition discriminate. Qed.

Lemma dline_short D i : 0 <= i <= int_max -> 0 <= D <= int_max -> Z.of_nat (length (dline D i)) < 3000.
Proof.
  intros H1 H2. unfold dline. rewrite !app_length. cbn [txt list_ascii_of_string length].
  pose proof (num_length_int i H1). pose proof (num_length_int D H2). lia.
Qed.

Lemma hline_words n m : words (hline n m) = [txt "p"; txt "cnf"; num n; num m].
Proof.
  change (hline n m) with (join [txt "p"; txt "cnf"; num n; num m]). apply words_join.
  intros w [<-|[<-|[<-|[<-|[]]]]]; try apply num_solid; (apply txt_solid; [reflexivity|discriminate]).
Qed.

Lemma hline_no_lf n m : ~ In LF (hline n m).
Proof. unfold hline. repeat apply no_lf_app; try apply num_no_lf; cbn; intuition discriminate. Qed.

Lemma hline_short n m : 0 <= n <= int_max -> 0 <= m <= int_max -> Z.of_nat (length (hline n m)) < 3000.
Proof.
  intros H1 H2. unfold hline. rewrite !app_length. cbn [txt list_ascii_of_string length].
  pose proof (num_length_int n H1). pose proof (num_length_int m H2). lia.
Qed.

Lemma hline_problem n m : 0 <= n <= int_max -> 0 <= m <= int_max -> problem_line (hline n m).
Proof. intros. exists (txt "cnf"), n, m. repeat split; auto; try lia. apply hline_words. Qed.

(** ** Texts as lines *)

Lemma flat_unlines {A} (f : A -> text) l : flat (fun x => f x ++ [LF]) l = unlines (map f l).
Proof. unfold flat, unlines. rewrite map_map. reflexivity. Qed.

Lemma flat_flat {A B} (f : B -> text) (g : A -> list B) l : flat (fun x => flat f (g x)) l = flat f (flat_map g l).
Proof. unfold flat. induction l as [|x l IH]; auto. cbn [map List.concat flat_map]. rewrite map_app, concat_app, IH. reflexivity. Qed.

Lemma flat_map_map {A B} (f : B -> text) (g : A -> B) l : flat f (map g l) = flat (fun x => f (g x)) l.
Proof. unfold flat. rewrite map_map. reflexivity. Qed.

Lemma flat_ext {A} (f g : A -> text) l : (forall x, f x = g x) -> flat f l = flat g l.
Proof. intro H. unfold flat. f_equal. apply map_ext. auto. Qed.

Lemma flat_rows qs : flat ne_row qs = unlines (map qline qs).
Proof. rewrite <- flat_unlines. apply flat_ext. intros (((x & d) & y) & e). reflexivity. Qed.

Definition keep (l : text) : bool := negb (is_comment l || is_problem l).

Lemma keep_all ls : (forall l, In l ls -> is_comment l = false /\ is_problem l = false) -> filter keep ls = ls.
Proof.
  induction ls as [|l ls IH]; intro H; auto. cbn [filter]. unfold keep at 1. destruct (H l (or_introl eq_refl)) as (-> & ->). cbn.
  f_equal. apply IH. intros; apply H; right; auto.
Qed.

Lemma keep_lines D n qs : let ls := map (dline D) (loop 1 (n + 1)) ++ map qline qs in
  filter keep ls = ls /\ (forall l, In l ls -> is_comment l = false /\ is_problem l = false).
Proof.
  cbn zeta. assert (H : forall l, In l (map (dline D) (loop 1 (n + 1)) ++ map qline qs) -> is_comment l = false /\ is_problem l = false).
  { intros l Hl. apply in_app_or in Hl. destruct Hl as [Hl|Hl]; apply in_map_iff in Hl.
    - destruct Hl as (i & <- & _). split; reflexivity.
    - destruct Hl as (q & <- & _). apply qline_kind. }
  split; auto. apply keep_all. auto.
Qed.

Lemma qlines qs : Forall2 clause_line (map qclause qs) (map qline qs).
Proof. induction qs; constructor; auto. apply qline_line. Qed.

Lemma qopen qs : Forall2 open_line (map qclause qs) (map qline qs).
Proof. induction qs; constructor; auto. right. apply qline_line. Qed.

(** A text with comments and problem lines, and otherwise the domain lines and the clauses. *)
Lemma qaccepted n D qs ls t : 0 <= n -> has_lines t ls ->
  (forall l, In l ls -> is_problem l = true -> problem_line l) ->
  filter keep ls = map (dline D) (loop 1 (n + 1)) ++ map qline qs -> accepted (qproblem n D qs) t.
Proof.
  intros Hn HL HP HF. exists ls, (map (dline D) (loop 1 (n + 1))), (map qline qs).
  split; auto. split; auto. split; [exact HF|]. split; [apply dline_lines; auto|apply qopen].
Qed.

(** The same with the problem line first. *)
Lemma qdocumented n D qs ls t : 0 <= n -> has_lines t ls ->
  filter (fun l => negb (is_comment l)) ls = hline n (Z.of_nat (length qs)) :: map (dline D) (loop 1 (n + 1)) ++ map qline qs ->
  documented_as (txt "cnf") (qproblem n D qs) t.
Proof.
  intros Hn HL HF. exists ls. eexists _, _, _. split; [exact HL|]. split; [exact HF|]. split; [|split; [apply dline_lines; auto|apply qlines]].
  split; [eexists; reflexivity|]. rewrite qnvars by auto. cbn [clauses qproblem]. rewrite map_length. apply hline_words.
Qed.

(** ** Pigeons *)

Lemma until_loop i j k : In k (until j (loop 1 i)) <-> 1 <= k < i /\ (1 <= j -> k < j).
Proof.
  destruct (Z_lt_le_dec 1 i) as [L|L]; [|unfold loop; replace (Z.to_nat (i - 1)) with 0%nat by lia; cbn; intuition lia].
  assert (G : forall n s, In k (until j (loop s (s + Z.of_nat n))) <-> s <= k < s + Z.of_nat n /\ (s <= j -> k < j)).
  { induction n as [|n IH]; intro s.
    - unfold loop. replace (Z.to_nat _) with 0%nat by lia. cbn. intuition lia.
    - rewrite loop_cons by lia. cbn [until]. replace (s + Z.of_nat (S n)) with (s + 1 + Z.of_nat n) by lia.
      destruct (Z.eqb_spec s j) as [->|N]; [cbn; intuition lia|]. cbn [In]. rewrite IH. lia. }
  specialize (G (Z.to_nat (i - 1)) 1). replace (1 + Z.of_nat (Z.to_nat (i - 1))) with i in G by lia. exact G.
Qed.

Definition below (n : Z) : list (Z * Z) := flat_map (fun j => map (fun k => (j, k)) (until j (loop 1 (n + 1)))) (loop 1 (n + 1)).
Definition pigeon_quads (n D : Z) : list (Z * Z * Z * Z) := flat_map (fun i => map (fun '(j, k) => (j, i, k, i)) (below n)) (loop 0 D).

Lemma in_below n j k : In (j, k) (below n) <-> 1 <= k < j /\ j <= n.
Proof.
  unfold below. rewrite in_flat_map. split.
  - intros (j' & Hj & H). apply in_map_iff in H. destruct H as (k' & E & Hk). injection E as -> ->. apply in_loop in Hj. apply until_loop in Hk. lia.
  - intro H. exists j. split; [apply in_loop; lia|]. apply in_map_iff. exists k. split; auto. apply until_loop. lia.
Qed.

Lemma in_pigeon_quads n D x d y e : In (x, d, y, e) (pigeon_quads n D) <-> d = e /\ 0 <= d < D /\ 1 <= y < x /\ x <= n.
Proof.
  unfold pigeon_quads. rewrite in_flat_map. split.
  - intros (i & Hi & H). apply in_map_iff in H. destruct H as ((j & k) & E & Hjk). injection E as -> -> -> <-.
    apply in_loop in Hi. apply in_below in Hjk. lia.
  - intros (-> & H1 & H2). exists e. split; [apply in_loop; lia|]. apply in_map_iff. exists (x, y). split; auto. apply in_below. lia.
Qed.

Lemma until_all j l : ~ In j l -> until j l = l.
Proof.
  induction l as [|k l IH]; intro H; auto. cbn [until]. destruct (Z.eqb_spec k j) as [->|N]; [exfalso; apply H; left; auto|].
  f_equal. apply IH. intro Q. apply H. right. auto.
Qed.

Lemma until_stop j : forall l l', ~ In j l -> until j (l ++ j :: l') = l.
Proof.
  induction l as [|k l IH]; intros l' H; cbn [app until].
  - rewrite Z.eqb_refl. reflexivity.
  - destruct (Z.eqb_spec k j) as [->|N]; [exfalso; apply H; left; auto|]. f_equal. apply IH. intro Q. apply H. right. auto.
Qed.

Lemma loop_split i j k : i <= j <= k -> loop i k = loop i j ++ loop j k.
Proof.
  intro H. unfold loop. replace (Z.to_nat (k - i)) with (Z.to_nat (j - i) + Z.to_nat (k - j))%nat by lia.
  rewrite seq_app, map_app. f_equal. cbn. replace (Z.to_nat (j - i)) with (Z.to_nat (j - i) + 0)%nat at 1 by lia.
  generalize 0%nat as a. induction (Z.to_nat (k - j)) as [|n IH]; intro a; auto. cbn [seq map]. f_equal; [lia|].
  replace (S (Z.to_nat (j - i) + a)) with (Z.to_nat (j - i) + S a)%nat by lia. apply IH.
Qed.

Lemma until_prefix j i : 1 <= j < i -> until j (loop 1 i) = loop 1 j.
Proof.
  intro H. rewrite (loop_split 1 j i) by lia. rewrite (loop_cons j i) by lia. apply until_stop. rewrite in_loop. lia.
Qed.

Lemma loop_length i j : Z.of_nat (length (loop i j)) = Z.max 0 (j - i).
Proof. unfold loop. rewrite map_length, seq_length. lia. Qed.

Lemma below_count n : 0 <= n -> 2 * Z.of_nat (length (below n)) = n * (n - 1).
Proof.
  intro Hn. unfold below.
  assert (G : forall l, (forall j, In j l -> 1 <= j <= n) ->
    length (flat_map (fun j => map (fun k => (j, k)) (until j (loop 1 (n + 1)))) l) = length (flat_map (fun j => loop 1 j) l)).
  { induction l as [|j l IH]; intro H; auto. cbn [flat_map]. rewrite !app_length, map_length, until_prefix by (specialize (H j (or_introl eq_refl)); lia).
    rewrite IH; auto. intros; apply H; right; auto. }
  rewrite G by (intros j Hj; apply in_loop in Hj; lia).
  assert (K : forall k, 2 * Z.of_nat (length (flat_map (fun j => loop 1 j) (loop 1 (1 + Z.of_nat k)))) = Z.of_nat k * (Z.of_nat k - 1)).
  { induction k as [|k IH]; [reflexivity|]. replace (1 + Z.of_nat (S k)) with (1 + Z.of_nat k + 1) by lia.
    rewrite loop_snoc by lia. rewrite flat_map_app, app_length, Nat2Z.inj_add. cbn [flat_map]. rewrite app_nil_r.
    rewrite loop_length. lia. }
  specialize (K (Z.to_nat n)). rewrite Z2Nat.id in K by auto. replace (1 + n) with (n + 1) in K by lia. exact K.
Qed.

Lemma flat_map_length {A B} (g : A -> list B) k l : (forall x, In x l -> length (g x) = k) -> length (flat_map g l) = (length l * k)%nat.
Proof.
  induction l as [|x l IH]; intro H; auto. cbn [flat_map]. rewrite app_length, H by (left; auto). rewrite IH by (intros; apply H; right; auto).
  cbn. lia.
Qed.

Lemma pigeon_count n D : 0 <= n -> 0 <= D -> 2 * Z.of_nat (length (pigeon_quads n D)) = D * (n * (n - 1)).
Proof.
  intros Hn HD. unfold pigeon_quads. rewrite (flat_map_length _ (length (below n))) by (intros; apply map_length).
  rewrite Nat2Z.inj_mul, loop_length, <- below_count by auto. rewrite Z.max_r by lia. lia.
Qed.

Lemma pigeon_number n : 1 <= n -> ((n - 1) ^ 2 * n) / 2 = Z.of_nat (length (pigeon_quads n (n - 1))).
Proof.
  intro Hn. pose proof (pigeon_count n (n - 1) ltac:(lia) ltac:(lia)) as C.
  replace ((n - 1) ^ 2 * n) with (Z.of_nat (length (pigeon_quads n (n - 1))) * 2); [apply Z.div_mul; lia|].
  rewrite Z.mul_comm, C. ring.
Qed.

Lemma flat_pigeon n D : flat (fun i => flat (fun j => flat (fun k => ne_line j i k i ++ [LF]) (until j (loop 1 (n + 1)))) (loop 1 (n + 1))) (loop 0 D) =
  unlines (map qline (pigeon_quads n D)).
Proof.
  rewrite <- flat_rows. unfold pigeon_quads. rewrite <- flat_flat. apply flat_ext. intro i. rewrite flat_map_map. unfold below.
  rewrite <- flat_flat. apply flat_ext. intro j. rewrite flat_map_map. reflexivity.
Qed.

Definition pigeon_lines (n : Z) : list text :=
  pigeon_comment n :: hline n (((n - 1) ^ 2 * n) / 2) :: map (dline (n - 1)) (loop 1 (n + 1)) ++ map qline (pigeon_quads n (n - 1)).

Lemma flat_dlines D l : flat (fun i => txt "d " ++ num i ++ txt " " ++ num D ++ [LF]) l = unlines (map (dline D) l).
Proof. rewrite <- flat_unlines. apply flat_ext. intro i. unfold dline. rewrite <- !app_assoc. reflexivity. Qed.

Lemma pigeon_text n : pigeon_file n = unlines (pigeon_lines n).
Proof.
  unfold pigeon_file, pigeon_lines. rewrite flat_pigeon, flat_dlines, !unlines_cons, unlines_app.
  unfold hline. rewrite <- !app_assoc. reflexivity.
Qed.

Lemma pigeon_comment_kind n : is_comment (pigeon_comment n) = true /\ is_problem (pigeon_comment n) = false.
Proof. split; reflexivity. Qed.

Lemma pigeon_comment_fine n : ~ In LF (pigeon_comment n).
Proof. unfold pigeon_comment. repeat apply no_lf_app; try apply num_no_lf; cbn; intuition discriminate. Qed.

Lemma pigeon_comment_short n : 1 <= n <= int_max -> Z.of_nat (length (pigeon_comment n)) < 3000.
Proof.
  intro H. unfold pigeon_comment. rewrite !app_length. cbn [txt list_ascii_of_string length].
  pose proof (num_length_int n ltac:(lia)). pose proof (num_length_int (n - 1) ltac:(lia)). lia.
Qed.

Lemma body_no_lf D n qs l : In l (map (dline D) (loop 1 (n + 1)) ++ map qline qs) -> ~ In LF l.
Proof.
  intro H. apply in_app_or in H. destruct H as [H|H]; apply in_map_iff in H; destruct H as (x & <- & _); [apply dline_no_lf|apply qline_no_lf].
Qed.

Lemma body_short D n qs l : 0 <= n <= int_max -> 0 <= D <= int_max -> (forall q, In q qs -> qfine n D q) ->
  In l (map (dline D) (loop 1 (n + 1)) ++ map qline qs) -> Z.of_nat (length l) < 3000.
Proof.
  intros Hn HD F H. apply in_app_or in H. destruct H as [H|H]; apply in_map_iff in H; destruct H as (x & <- & Hx).
  - apply in_loop in Hx. apply dline_short; lia.
  - apply (qline_short n D); auto; lia.
Qed.

Lemma pigeon_has n : has_lines (pigeon_file n) (pigeon_lines n).
Proof.
  split; [|left; apply pigeon_text]. intros l [<-|[<-|Hl]]; [apply pigeon_comment_fine|apply hline_no_lf|apply (body_no_lf _ _ _ _ Hl)].
Qed.

Lemma pigeon_fine n D q : In q (pigeon_quads n D) -> qfine n D q.
Proof. destruct q as (((x & d) & y) & e). intro H. apply in_pigeon_quads in H. cbn. lia. Qed.

Lemma only_comments n qs D : filter (fun l => negb (is_comment l)) (map (dline D) (loop 1 (n + 1)) ++ map qline qs) = map (dline D) (loop 1 (n + 1)) ++ map qline qs.
Proof.
  destruct (keep_lines D n qs) as (_ & H). revert H. induction (map (dline D) (loop 1 (n + 1)) ++ map qline qs) as [|l ls IH]; intro H; auto.
  cbn [filter]. destruct (H l (or_introl eq_refl)) as (-> & _). cbn. f_equal. apply IH. intros; apply H; right; auto.
Qed.

Theorem pigeon_documented n : 1 <= n -> documented_as (txt "cnf") (qproblem n (n - 1) (pigeon_quads n (n - 1))) (pigeon_file n).
Proof.
  intro Hn. apply qdocumented with (ls := pigeon_lines n); [lia|apply pigeon_has|]. unfold pigeon_lines. cbn [filter].
  change (is_comment (pigeon_comment n)) with true. change (is_comment (hline n _)) with false. cbn [negb].
  rewrite only_comments, pigeon_number by auto. reflexivity.
Qed.

Lemma pigeon_describes n D : 0 <= n -> 0 <= D -> describes (qproblem n D (pigeon_quads n D)) n D (fun a => pairwise n a apart).
Proof.
  intros Hn HD. apply qdescribes; auto. intros a L. split.
  - intros P x d y e H (E1 & E2). apply in_pigeon_quads in H. apply (P x y); lia.
  - intros H x y Hx Hy N E. unfold apart in *. specialize (L x Hx) as Lx.
    destruct (Z_lt_le_dec y x).
    + apply (H x (a x) y (a x)); [apply in_pigeon_quads; lia|auto].
    + apply (H y (a x) x (a x)); [apply in_pigeon_quads; lia|auto].
Qed.

(** The pigeonhole principle. *)
Lemma pigeonhole n D (a : assignment) : 0 <= D < n -> (forall x, 1 <= x <= n -> 0 <= a x < D) -> ~ pairwise n a apart.
Proof.
  intros Hn L P.
  assert (ND : NoDup (map a (loop 1 (n + 1)))).
  { assert (G : forall l, NoDup l -> (forall x, In x l -> 1 <= x <= n) -> NoDup (map a l)).
    { induction l as [|x l IH]; intros Hl H; cbn; constructor; inversion Hl; subst.
      - intro Hin. apply in_map_iff in Hin. destruct Hin as (y & E & Hy). apply (P x y).
        * apply H; left; auto.
        * apply H; right; auto.
        * intro; subst y; contradiction.
        * symmetry. exact E.
      - apply IH; auto. intros; apply H; right; auto. }
    apply G; [|intros x Hx; apply in_loop in Hx; lia]. unfold loop. apply FinFun.Injective_map_NoDup; [intros i j; lia|apply seq_NoDup]. }
  assert (I : incl (map a (loop 1 (n + 1))) (loop 0 D)).
  { intros z Hz. apply in_map_iff in Hz. destruct Hz as (x & <- & Hx). apply in_loop in Hx. apply in_loop. apply L. lia. }
  pose proof (NoDup_incl_length ND I) as Q. rewrite map_length in Q. pose proof (loop_length 1 (n + 1)). pose proof (loop_length 0 D). lia.
Qed.

Lemma pigeon_short n : 1 <= n <= int_max -> (n - 1) * (n * (n - 1)) <= 2 * int_max -> lines_below 3000 (pigeon_file n).
Proof.
  intros Hn Hc. apply (lines_below_intro _ _ _ (pigeon_has n)).
  intros l [<-|[<-|Hl]]; [apply pigeon_comment_short; auto| |].
  - apply hline_short; [lia|]. rewrite pigeon_number by lia. pose proof (pigeon_count n (n - 1) ltac:(lia) ltac:(lia)). lia.
  - apply (body_short (n - 1) n (pigeon_quads n (n - 1)) l); auto; try lia. apply pigeon_fine.
Qed.

(** ** Queens *)

Lemma in_queens_rows n x d y e : In (x, d, y, e) (queens_rows n) <-> d = e /\ 0 <= d < n /\ 1 <= y < x /\ x <= n.
Proof.
  unfold queens_rows. rewrite in_flat_map. split.
  - intros (i & Hi & H). apply in_flat_map in H. destruct H as (j & Hj & H). apply in_map_iff in H. destruct H as (k & E & Hk).
    injection E as -> -> -> <-. apply in_loop in Hi, Hj. apply until_loop in Hk. lia.
  - intros (-> & H1 & H2). exists e. split; [apply in_loop; lia|]. apply in_flat_map. exists x. split; [apply in_loop; lia|].
    apply in_map_iff. exists y. split; auto. apply until_loop. lia.
Qed.

Lemma in_queens_diagonals n x d y e : In (x, d, y, e) (queens_diagonals n) <->
  0 <= d < n /\ 0 <= e < n /\ 1 <= y < x /\ x <= n /\ (x - d = y - e \/ x + d = y + e).
Proof.
  unfold queens_diagonals. rewrite in_flat_map. split.
  - intros (i & Hi & H). apply in_flat_map in H. destruct H as (k & Hk & H). apply in_flat_map in H. destruct H as (d' & Hd & H).
    apply in_flat_map in H. destruct H as (l & Hl & H). apply in_loop in Hi, Hd, Hl. apply until_loop in Hk.
    destruct ((i - d' =? k - l) || (i + d' =? k + l)) eqn:E; [|destruct H]. destruct H as [H|[]]. injection H as <- <- <- <-.
    apply orb_true_iff in E. rewrite !Z.eqb_eq in E. lia.
  - intros (H1 & H2 & H3 & H4 & H5). exists x. split; [apply in_loop; lia|]. apply in_flat_map. exists y. split; [apply until_loop; lia|].
    apply in_flat_map. exists d. split; [apply in_loop; lia|]. apply in_flat_map. exists e. split; [apply in_loop; lia|].
    assert (E : (x - d =? y - e) || (x + d =? y + e) = true) by (apply orb_true_iff; rewrite !Z.eqb_eq; auto). rewrite E. left. auto.
Qed.

Definition queens_quads (n : Z) : list (Z * Z * Z * Z) := queens_rows n ++ queens_diagonals n.

Lemma queens_fine n q : In q (queens_quads n) -> qfine n n q.
Proof.
  destruct q as (((x & d) & y) & e). intro H. apply in_app_or in H. rewrite in_queens_rows, in_queens_diagonals in H. cbn. lia.
Qed.

Lemma queens_distinct n x d y e : In (x, d, y, e) (queens_quads n) -> x <> y.
Proof. intro H. apply in_app_or in H. rewrite in_queens_rows, in_queens_diagonals in H. lia. Qed.

Lemma queens_describes n : 0 <= n -> describes (qproblem n n (queens_quads n)) n n (fun a => pairwise n a queens_apart).
Proof.
  intro Hn. apply qdescribes; auto. intros a L. unfold pairwise, queens_apart, queen_attacks. split.
  - intros P x d y e H (E1 & E2). apply in_app_or in H. rewrite in_queens_rows, in_queens_diagonals in H. apply (P x y); lia.
  - intros H x y Hx Hy N Q. pose proof (L x Hx). pose proof (L y Hy).
    assert (G : forall x y, 1 <= x <= n -> 1 <= y <= n -> y < x -> a x = a y \/ Z.abs (x - y) = Z.abs (a x - a y) -> False).
    { clear x y Hx Hy N Q H0 H1. intros x y Hx Hy Lt Q. pose proof (L x Hx). pose proof (L y Hy). apply (H x (a x) y (a y)); auto.
      apply in_or_app. rewrite in_queens_rows, in_queens_diagonals. lia. }
    destruct (Z_lt_le_dec y x); [apply (G x y)|apply (G y x)]; lia.
Qed.

Definition queens_lines (n : Z) : list text :=
  map (dline n) (loop 1 (n + 1)) ++ map qline (queens_rows n) ++ txt "c diagonals" :: map qline (queens_diagonals n) ++
  [hline n (Z.of_nat (length (queens_quads n)))].

Lemma queens_text n : queens_file n = unlines (queens_lines n).
Proof.
  unfold queens_file, queens_lines. rewrite !flat_rows, flat_dlines, !unlines_app, !unlines_cons, !unlines_app. cbn [unlines map List.concat app].
  unfold hline, queens_quads. rewrite app_length, Nat2Z.inj_add, app_nil_r. rewrite <- !app_assoc. reflexivity.
Qed.

Lemma queens_has n : has_lines (queens_file n) (queens_lines n).
Proof.
  split; [|left; apply queens_text]. intros l Hl. unfold queens_lines in Hl. apply in_app_or in Hl. destruct Hl as [Hl|Hl].
  { apply in_map_iff in Hl. destruct Hl as (i & <- & _). apply dline_no_lf. }
  apply in_app_or in Hl. destruct Hl as [Hl|[<-|Hl]]; [apply in_map_iff in Hl; destruct Hl as (i & <- & _); apply qline_no_lf|cbn; intuition discriminate|].
  apply in_app_or in Hl. destruct Hl as [Hl|[<-|[]]]; [apply in_map_iff in Hl; destruct Hl as (i & <- & _); apply qline_no_lf|apply hline_no_lf].
Qed.

Lemma queens_keep n : filter keep (queens_lines n) = map (dline n) (loop 1 (n + 1)) ++ map qline (queens_quads n).
Proof.
  unfold queens_lines, queens_quads. destruct (keep_lines n n (queens_rows n)) as (K1 & _). destruct (keep_lines n n (queens_diagonals n)) as (K2 & _).
  rewrite filter_app in K1, K2. rewrite !filter_app. cbn [filter]. rewrite filter_app. cbn [filter].
  change (keep (txt "c diagonals")) with false. change (keep (hline n _)) with false. cbn iota. rewrite app_nil_r, map_app.
  assert (E : forall qs, filter keep (map qline qs) = map qline qs).
  { intro qs. apply keep_all. intros l Hl. apply in_map_iff in Hl. destruct Hl as (q & <- & _). apply qline_kind. }
  rewrite !E in *. apply app_inv_tail in K1. rewrite K1. reflexivity.
Qed.

Lemma queens_problems n l : 0 <= n <= int_max -> Z.of_nat (length (queens_quads n)) <= int_max ->
  In l (queens_lines n) -> is_problem l = true -> problem_line l.
Proof.
  intros Hn Hc Hl Hp. assert (D : In l (map (dline n) (loop 1 (n + 1)) ++ map qline (queens_quads n)) \/ l = txt "c diagonals" \/ l = hline n (Z.of_nat (length (queens_quads n)))).
  { unfold queens_lines, queens_quads in *. rewrite map_app, !in_app_iff in *. cbn [In] in Hl. rewrite in_app_iff in Hl. cbn [In] in Hl. intuition. }
  destruct D as [D|[->| ->]]; [|discriminate|apply hline_problem; lia].
  destruct (keep_lines n n (queens_quads n)) as (_ & K). destruct (K l D) as (_ & E). congruence.
Qed.

Theorem queens_accepted n : 0 <= n <= int_max -> Z.of_nat (length (queens_quads n)) <= int_max ->
  accepted (qproblem n n (queens_quads n)) (queens_file n).
Proof.
  intros Hn Hc. apply qaccepted with (ls := queens_lines n); [lia|apply queens_has| |apply queens_keep].
  intros l Hl Hp. apply (queens_problems n); auto.
Qed.

Lemma queens_short n : 0 <= n <= int_max -> Z.of_nat (length (queens_quads n)) <= int_max -> lines_below 3000 (queens_file n).
Proof.
  intros Hn Hc. apply (lines_below_intro _ _ _ (queens_has n)). intros l Hl.
  assert (D : In l (map (dline n) (loop 1 (n + 1)) ++ map qline (queens_quads n)) \/ l = txt "c diagonals" \/ l = hline n (Z.of_nat (length (queens_quads n)))).
  { unfold queens_lines, queens_quads in *. rewrite map_app, !in_app_iff in *. cbn [In] in Hl. rewrite in_app_iff in Hl. cbn [In] in Hl. intuition. }
  destruct D as [D|[->| ->]]; [|vm_compute; reflexivity|apply hline_short; lia].
  apply (body_short n n (queens_quads n) l); auto. apply queens_fine.
Qed.

(** The file does not have the documented layout: the problem line is the last one. *)
Theorem queens_not_documented n p : 1 <= n -> ~ documented p (queens_file n).
Proof.
  intros Hn D. assert (G : forall f, ~ documented_as f p (queens_file n)); [|destruct D as [D|D]; apply G in D; auto].
  clear D. intros f (ls & hd & ds & cs & HL & FL & (S & _) & _). pose proof (has_lines_unique _ _ _ HL (queens_has n)) as ->.
  unfold queens_lines in FL. rewrite loop_cons in FL by lia. cbn [map app filter] in FL. change (is_comment (dline n 1)) with false in FL. cbn in FL.
  injection FL as E _. destruct S as (r & ->). discriminate.
Qed.
