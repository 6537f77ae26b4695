(** * The benchmark programs: tables of results *)

From Coq Require Import Ascii String Permutation.
From Verif Require Import Spec Outcome State Base Observe TextSpec ModelText ModelRead EncodeSpec ModelEncode
  Text Read Encode CliSpec ModelMenu MainSpec BenchSpec ModelBench Bench.
#[local] Open Scope char_scope.
#[local] Open Scope list_scope.
#[local] Open Scope Z_scope.

Lemma calm_line l : calm l -> parse_line l = [].
Proof.
  induction l as [|a l IH]; intro H; auto. cbn [parse_line]. destruct (H a (or_introl eq_refl)) as (H1 & H2).
  destruct (Ascii.eqb_spec a ":"); [congruence|]. destruct (Ascii.eqb_spec a "T"); [congruence|]. cbn. apply IH. intros x Hx. apply H. right. auto.
Qed.

Lemma cstr_in l a : In a (cstr l) -> In a l.
Proof. induction l as [|b l IH]; [intros []|]. cbn [cstr]. destruct (Ascii.eqb b NUL); [intros []|]. intros [->|H]; [left|right]; auto. Qed.

Lemma parse_unlines ls : (forall l, In l ls -> ~ In LF l) -> forall t, parse_results (unlines ls ++ t) = flat (fun l => parse_line (cstr l)) ls ++ parse_results t.
Proof.
  assert (G : forall l cur t, ~ In LF l -> str_lines cur (l ++ LF :: t) = (rev cur ++ l) :: str_lines [] t).
  { induction l as [|a l IH]; intros cur t H; cbn [app str_lines].
    - change (Ascii.eqb LF LF) with true. cbn iota. rewrite app_nil_r. reflexivity.
    - destruct (Ascii.eqb_spec a LF) as [->|N]; [exfalso; apply H; left; auto|]. rewrite IH by (intro Q; apply H; right; auto). cbn [rev]. rewrite <- app_assoc. reflexivity. }
  induction ls as [|l ls IH]; intros H t; [reflexivity|]. rewrite unlines_cons, <- app_assoc. cbn [app]. unfold parse_results. rewrite G by (apply H; left; auto).
  unfold flat. cbn [map List.concat rev app]. rewrite <- app_assoc. f_equal. apply IH. intros; apply H; right; auto.
Qed.

Lemma parse_calm : forall h t, calm h -> parse_results (h ++ LF :: t) = parse_results t.
Proof.
  unfold parse_results. assert (G : forall h cur t, calm h -> calm (rev cur) -> flat (fun l => parse_line (cstr l)) (str_lines cur (h ++ LF :: t)) = flat (fun l => parse_line (cstr l)) (str_lines [] t)).
  { induction h as [|a h IH]; intros cur t H C; cbn [app str_lines].
    - change (Ascii.eqb LF LF) with true. cbn iota. unfold flat. cbn [map List.concat]. rewrite calm_line; auto. intros x Hx. apply C. apply cstr_in. auto.
    - assert (H' : calm h) by (intros x Hx; apply H; right; auto). destruct (Ascii.eqb_spec a LF) as [->|N].
      + unfold flat. cbn [map List.concat]. rewrite calm_line; [|intros x Hx; apply C; apply cstr_in; auto]. cbn [app]. apply (IH [] t); auto. intros x [].
      + apply IH; auto. cbn [rev]. intros x Hx. apply in_app_or in Hx. destruct Hx as [Hx|[<-|[]]]; [apply C; auto|apply H; left; auto]. }
  intros h t H. apply G; auto. intros x [].
Qed.

Lemma num_calm z : calm (num z).
Proof. intros a Ha. apply num_not_nul in Ha. destruct Ha as [Ha| ->]; split; try discriminate; intros ->; discriminate. Qed.

Lemma num_cstr z : cstr (num z) = num z.
Proof. apply cstr_id. intro H. apply num_not_nul in H. destruct H; discriminate. Qed.

Lemma stat_line w z : In w (map txt ["Decisions   : "; "Units       : "; "Backtracks  : "; "Entails     : "; "Variables   : "; "Clauses     : "; "Restarts   : "]%string) ->
  parse_line (cstr (w ++ num z)) = num z ++ [NUL; SP].
Proof.
  intro H. assert (N : ~ In NUL (w ++ num z)).
  { intro Q. apply in_app_or in Q. destruct Q as [Q|Q]; [|apply num_not_nul in Q; destruct Q; discriminate].
    cbn [map In] in H. repeat (destruct H as [<-|H]; [cbn in Q; intuition discriminate|]). destruct H. }
  rewrite cstr_id by exact N. pose proof (calm_line (num z) (num_calm z)) as C.
  cbn [map In] in H. repeat (destruct H as [<-|H]; [cbn; rewrite C, <- ?app_assoc; reflexivity|]). destruct H.
Qed.

Definition answers : list text := map txt ["SAT"; "UNSAT"; "TIMEOUT"]%string.

Lemma answer_row w d u b e n m r t : In w answers -> parse_results (unlines (answer_lines w d u b e n m r) ++ t) = row [d; u; b; e; n; m; r] ++ parse_results t.
Proof.
  intros C. rewrite parse_unlines.
  - f_equal. unfold answer_lines, flat, row. cbn [map List.concat]. rewrite !stat_line by (cbn; tauto).
    replace (parse_line (cstr (BEL :: w))) with (@nil ascii) by (repeat (destruct C as [<-|C]; [reflexivity|]); destruct C). reflexivity.
  - assert (N : ~ In LF w) by (repeat (destruct C as [<-|C]; [cbn; intuition discriminate|]); destruct C).
    intros l Hl. unfold answer_lines in Hl.
    assert (G : forall x z, ~ In LF (txt x) -> ~ In LF (txt x ++ num z)) by (intros; apply no_lf_app; auto; apply num_no_lf).
    cbn [In] in Hl. destruct Hl as [<-|Hl]; [intros [Q|Q]; [discriminate|auto]|]. destruct Hl as [<-|Hl]; [intros []|].
    repeat (destruct Hl as [<-|Hl]; [first [apply G; cbn; intuition discriminate|intros []]|]). destruct Hl.
Qed.

Lemma model_row v ls t : parse_results (unlines (model_lines v ls) ++ t) = [LF; NUL; SP] ++ parse_results t.
Proof.
  assert (LC : forall l, calm (lit_text l) /\ ~ In LF (lit_text l)).
  { intro l. unfold lit_text. split.
    - intros a Ha. apply in_app_or in Ha. destruct Ha as [Ha|Ha]; [apply (num_calm _ _ Ha)|]. apply in_app_or in Ha. destruct Ha as [Ha|Ha]; [|apply (num_calm _ _ Ha)].
      destruct (leq l); cbn in Ha; repeat (destruct Ha as [<-|Ha]; [split; discriminate|]); destruct Ha.
    - apply no_lf_app; [apply num_no_lf|]. apply no_lf_app; [|apply num_no_lf]. destruct (leq l); cbn; intuition discriminate. }
  rewrite parse_unlines.
  - f_equal. unfold model_lines. unfold flat. cbn [map List.concat]. rewrite map_app, concat_app, map_app, concat_app.
    replace (List.concat (map (fun l => parse_line (cstr l)) (map lit_text ls))) with (@nil ascii).
    + destruct v; reflexivity.
    + symmetry. induction ls as [|l ls IH]; auto. cbn [map List.concat]. rewrite IH, calm_line; auto. intros a Ha. apply (LC l). apply cstr_in. auto.
  - intros l Hl. unfold model_lines in Hl. destruct Hl as [<-|Hl]; [cbn; intuition discriminate|]. apply in_app_or in Hl. destruct Hl as [Hl|Hl].
    + apply in_map_iff in Hl. destruct Hl as (x & <- & _). apply LC.
    + destruct v; cbn [app In] in Hl; repeat (destruct Hl as [<-|Hl]; [cbn; intuition discriminate|]); destruct Hl.
Qed.

Lemma title_calm : calm title.
Proof.
  unfold title. intros a Ha. vm_compute in Ha. repeat (destruct Ha as [<-|Ha]; [split; discriminate|]). destruct Ha.
Qed.

(** One run of the solver. *)
Theorem screen_row f t1 t2 t3 log w d u b e n m r ls t : calm (f ++ t1 ++ t2 ++ t3 ++ log) -> In w answers ->
  parse_results (solver_screen f t1 t2 t3 log (answer_lines w d u b e n m r ++ ls) ++ t) = row [d; u; b; e; n; m; r] ++ parse_results (unlines ls ++ t).
Proof.
  intros C Cw. unfold solver_screen. rewrite !unlines_cons. cbn [app]. rewrite unlines_app.
  assert (E : forall X, (title ++ f ++ SP :: TAB :: t1 ++ TAB :: log ++ t2 ++ TAB :: SP :: t3 ++ TAB :: LF :: LF :: X) ++ t =
    (title ++ f ++ SP :: TAB :: t1 ++ TAB :: log ++ t2 ++ TAB :: SP :: t3 ++ [TAB]) ++ LF :: LF :: X ++ t).
  { intro X. repeat (rewrite <- ?app_assoc; cbn [app]). reflexivity. }
  rewrite E, parse_calm.
  - etransitivity; [apply (parse_calm []); intros x []|]. rewrite <- app_assoc. apply answer_row; auto.
  - assert (B : calm [SP] /\ calm [TAB]) by (split; intros x [<-|[]]; split; discriminate). destruct B as (B1 & B2).
    intros x Hx. assert (D : In x title \/ In x (f ++ t1 ++ t2 ++ t3 ++ log) \/ In x [SP] \/ In x [TAB]).
    { rewrite !in_app_iff in *. cbn [In] in Hx. rewrite !in_app_iff in Hx. cbn [In] in *. rewrite !in_app_iff in Hx. cbn [In] in *. rewrite !in_app_iff in Hx. cbn [In] in *. tauto. }
    destruct D as [D|[D|[D|D]]]; [apply title_calm; auto|apply C; auto|apply B1; auto|apply B2; auto].
Qed.

(** A run with a right answer: a row; after it, if there is a model, a line feed, a NUL and a blank. *)
Theorem right_row p lazy verbose late f t1 t2 t3 log w rest d u b e n m r t : calm (f ++ t1 ++ t2 ++ t3 ++ log) -> right p lazy verbose late w rest ->
  parse_results (solver_screen f t1 t2 t3 log (answer_lines w d u b e n m r ++ rest) ++ t) =
  row [d; u; b; e; n; m; r] ++ (match rest with [] => [] | _ => [LF; NUL; SP] end) ++ parse_results t.
Proof.
  intros C R. inversion R as [ls a M H E1 E2|U E1 E2|k H E1 E2]; subst; rewrite screen_row; auto; try (cbn; tauto).
  rewrite model_row. reflexivity.
Qed.

(** Nqueens/Output.cc prints the same without line feeds. *)
Theorem output_filter t : output_cc t = filter (fun a => negb (Ascii.eqb a LF)) (parse_results t) ++ [LF].
Proof.
  assert (S : forall t cur, ~ In LF cur -> forall l, In l (str_lines cur t) -> ~ In LF l).
  { clear t. induction t as [|a t IH]; intros cur Hc l Hl; cbn [str_lines] in Hl.
    - destruct cur as [|x cur]; [destruct Hl|]. destruct Hl as [<-|[]]. intro Q. rewrite <- in_rev in Q. auto.
    - destruct (Ascii.eqb_spec a LF) as [->|N].
      + destruct Hl as [<-|Hl]; [intro Q; rewrite <- in_rev in Q; auto|]. eapply IH; [|exact Hl]. intros [].
      + eapply IH; [|exact Hl]. intros [Q|Q]; auto. }
  assert (F : forall l, ~ In LF l -> filter (fun a => negb (Ascii.eqb a LF)) l = l).
  { induction l as [|a l IH]; intro H; auto. cbn [filter]. destruct (Ascii.eqb_spec a LF) as [->|N]; [exfalso; apply H; left; auto|]. cbn [negb]. rewrite IH; auto. intro Q; apply H; right; auto. }
  assert (L : forall l, ~ In LF l -> output_line l = filter (fun a => negb (Ascii.eqb a LF)) (parse_line l)).
  { induction l as [|a l IH]; intro H; auto. cbn [output_line parse_line]. assert (H' : ~ In LF l) by (intro Q; apply H; right; auto). rewrite filter_app, <- IH by auto. f_equal.
    destruct (Ascii.eqb a ":").
    - rewrite F; auto. intro Q. apply in_app_or in Q. destruct Q as [Q|[Q|[]]]; [|discriminate Q]. exfalso.
      assert (Q' : In LF (l ++ [NUL])) by (destruct (l ++ [NUL]); [destruct Q|right; auto]). apply in_app_or in Q'. destruct Q' as [Q'|[Q'|[]]]; [exact (H' Q')|discriminate Q'].
    - destruct (Ascii.eqb a "T" && _); reflexivity. }
  unfold output_cc, parse_results. f_equal. specialize (S t [] ltac:(intros [])). induction (str_lines [] t) as [|l ls IH]; auto.
  unfold flat in *. cbn [map List.concat]. rewrite filter_app. f_equal.
  - apply L. intro Q. apply cstr_in in Q. revert Q. apply S. left; auto.
  - apply IH. intros x Hx. apply S. right; auto.
Qed.
