(** * The benchmark programs: graph colouring *)

From Coq Require Import Ascii String.
From Verif Require Import Spec Outcome State Base TextSpec ModelText ModelRead EncodeSpec ModelEncode
  Text Read Encode EncodeMore FileUnique BenchSpec ModelBench Bench Bench2 Bench3 Bench4.
#[local] Open Scope char_scope.
#[local] Open Scope list_scope.
#[local] Open Scope Z_scope.

(** ** Python's int() and str.split() *)

Lemma digit_of a : is_digit a = true -> exists d, digit a = Some d.
Proof. unfold is_digit. destruct (digit a) as [d|]; [exists d; auto|discriminate]. Qed.

Lemma py_scan : forall t acc, (forall a, In a t -> is_digit a = true) -> py_digits acc t = Some (fst (scan_digits acc t)).
Proof.
  induction t as [|a t IH]; intros acc H; [reflexivity|]. cbn [py_digits scan_digits].
  destruct (digit_of a (H a (or_introl eq_refl))) as (d & ->). apply IH. intros; apply H; right; auto.
Qed.

Lemma py_nat_num z : 0 <= z -> py_nat (num z) = Some z.
Proof.
  intro L. destruct (num_digits z L) as (a & r & E & D). pose proof (scan_num_nat z [] L I) as S. rewrite app_nil_r in S.
  rewrite E in *. destruct (digit_of a (D a (or_introl eq_refl))) as (d & Ed).
  unfold py_nat. unfold scan_nat in S. rewrite Ed in *. rewrite py_scan by (intros; apply D; right; auto).
  cbn [scan_digits] in S. rewrite Ed in S. change (10 * 0 + d) with d in S. injection S as S. rewrite S. reflexivity.
Qed.

Lemma py_int_num z : py_int (num z) = Some z.
Proof.
  destruct (Z_lt_le_dec z 0) as [L|L].
  - destruct z as [|p|p]; try lia. rewrite num_neg, <- num_pos. unfold py_int. rewrite py_nat_num by lia. reflexivity.
  - pose proof (py_nat_num z L) as P. destruct (num_digits z L) as (a & r & E & D). rewrite E in *. specialize (D a (or_introl eq_refl)).
    unfold py_int. destruct a as [[] [] [] [] [] [] [] []]; try exact P; discriminate.
Qed.

(** Characters that both str.split() and the specification treat alike. *)
Definition plain (a : ascii) : Prop := py_space a = blank a.

Lemma py_split_words : forall t cur, (forall a, In a t -> plain a) -> py_split cur t = words_from (rev cur) t.
Proof.
  induction t as [|a t IH]; intros cur H; cbn [py_split words_from].
  - destruct cur as [|b cur]; [reflexivity|]. cbn [rev]. destruct (rev cur); reflexivity.
  - rewrite (H a (or_introl eq_refl)). destruct (blank a).
    + destruct cur as [|b cur]; cbn [rev flush]; [apply IH; intros; apply H; right; auto|].
      rewrite IH by (intros; apply H; right; auto). destruct (rev cur); reflexivity.
    + rewrite IH by (intros; apply H; right; auto). reflexivity.
Qed.

Lemma py_split_lf : forall t cur, py_split cur (t ++ [LF]) = py_split cur t.
Proof.
  induction t as [|a t IH]; intro cur; cbn [app py_split].
  - change (py_space LF) with true. cbn iota. destruct cur; reflexivity.
  - rewrite !IH. reflexivity.
Qed.

Lemma digit_plain a : is_digit a = true -> py_space a = false.
Proof. destruct a as [[] [] [] [] [] [] [] []]; intro H; try reflexivity; discriminate H. Qed.

Lemma words_solid : forall ws t w, words t = ws -> In w ws -> solid w.
Proof.
  induction ws as [|v ws IH]; intros t w E H; [destruct H|]. apply words_cons in E. destruct E as (b & r & _ & _ & S & _ & W).
  destruct H as [<-|H]; auto. apply (IH r); auto.
Qed.

Lemma plain_words t ws : words t = ws -> (forall w a, In w ws -> In a w -> py_space a = false) -> py_split [] t = ws.
Proof.
  intros W H. rewrite py_split_words; [exact W|]. intros a Ha.
  destruct (words_chars ws t W a Ha) as [B|(w & Hw & Hin)].
  - unfold plain. rewrite B. unfold blank in B. apply orb_prop in B. destruct B as [B|B]; apply Ascii.eqb_eq in B; subst a; reflexivity.
  - unfold plain. rewrite (H w a Hw Hin). destruct (words_solid ws t w W Hw) as (_ & S). rewrite S; auto.
Qed.

Lemma num_py z a : In a (num z) -> py_space a = false.
Proof. intro H. apply num_not_nul in H. destruct H as [H| ->]; [apply digit_plain; auto|reflexivity]. Qed.

(** ** The lines readline() returns *)

Inductive raws : list text -> list text -> Prop :=
| raws_nil : raws [] []
| raws_last l : l <> [] -> raws [l] [l]
| raws_cons l ls rs : raws ls rs -> raws (l :: ls) ((l ++ [LF]) :: rs).

Lemma py_lines_line : forall l cur t, ~ In LF l -> py_lines cur (l ++ LF :: t) = (rev cur ++ l ++ [LF]) :: py_lines [] t.
Proof.
  induction l as [|a l IH]; intros cur t H; cbn [app py_lines].
  - change (Ascii.eqb LF LF) with true. reflexivity.
  - destruct (Ascii.eqb_spec a LF) as [->|N]; [exfalso; apply H; left; auto|]. rewrite IH by (intro Q; apply H; right; auto).
    cbn [rev]. rewrite <- app_assoc. reflexivity.
Qed.

Lemma py_lines_last : forall l cur, ~ In LF l -> l <> [] \/ cur <> [] -> py_lines cur l = [rev cur ++ l].
Proof.
  induction l as [|a l IH]; intros cur H N; cbn [py_lines].
  - destruct N as [N|N]; [congruence|]. destruct cur; [congruence|]. rewrite app_nil_r. reflexivity.
  - destruct (Ascii.eqb_spec a LF) as [->|Na]; [exfalso; apply H; left; auto|].
    rewrite IH; [|intro Q; apply H; right; auto|right; discriminate]. cbn [rev]. rewrite <- app_assoc. reflexivity.
Qed.

Lemma raws_lines t ls : has_lines t ls -> raws ls (py_lines [] t).
Proof.
  intros (NL & [->|(E & La)]).
  - induction ls as [|l ls IH]; [constructor|]. rewrite unlines_cons, py_lines_line by (apply NL; left; auto). constructor. apply IH. intros; apply NL; right; auto.
  - revert t E. induction ls as [|l ls IH]; intros t E; [destruct t; discriminate|]. rewrite unlines_cons in E.
    destruct ls as [|l2 ls].
    + change (t ++ [LF] = l ++ [LF]) in E. apply app_inj_tail in E. destruct E as (-> & _). cbn in La.
      rewrite py_lines_last; [apply raws_last; auto|apply NL; left; auto|left; auto].
    + assert (exists t', t = l ++ LF :: t' /\ t' ++ [LF] = unlines (l2 :: ls)) as (t' & -> & E').
      { destruct (unlines (l2 :: ls)) as [|x u _] eqn:U using rev_ind.
        - exfalso. rewrite unlines_cons in U. destruct l2; discriminate.
        - rewrite app_comm_cons, app_assoc in E. apply app_inj_tail in E. destruct E as (-> & <-). exists u. split; auto. }
      rewrite py_lines_line by (apply NL; left; auto). constructor. apply IH; auto. intros; apply NL; right; auto.
Qed.

(** ** One line *)

Lemma color_comment N s l : is_comment l = true ->
  color_line N s l = (if k_omit s then s else mkColoring (k_problem s) (k_omit s) (k_edges s) (k_out s ++ l), true).
Proof. destruct l as [|a l]; [discriminate|]. intro H. apply Ascii.eqb_eq in H. subst a. reflexivity. Qed.

Lemma comment_lf l : is_comment l = true -> is_comment (l ++ [LF]) = true.
Proof. destruct l; [discriminate|auto]. Qed.

Lemma raw_split l r : r = l \/ r = l ++ [LF] -> py_split [] r = py_split [] l.
Proof. intros [->| ->]; [reflexivity|apply py_split_lf]. Qed.

Lemma raw_head a l r : r = l \/ r = l ++ [LF] -> starts a l -> exists r', r = a :: r'.
Proof. intros H (l' & ->). destruct H as [->| ->]; eexists; reflexivity. Qed.

Lemma color_edge N s e l r : edge_line e l -> r = l \/ r = l ++ [LF] ->
  color_line N s r = (mkColoring (k_problem s) true (k_edges s ++ [e]) (k_out s), true).
Proof.
  intros (S & W) R. pose proof (raw_split l r R) as Q. destruct (raw_head "e" l r R S) as (r' & ->).
  rewrite (plain_words l _ W) in Q.
  - unfold color_line. rewrite Q. cbn [skipn firstn]. rewrite !py_int_num. destruct e; reflexivity.
  - intros w a [<-|[<-|[<-|[]]]] H; [destruct H as [<-|[]]; reflexivity|apply (num_py _ _ H)|apply (num_py _ _ H)].
Qed.

Lemma color_head N s n m f l r : starts "p" l -> (f = txt "edge" \/ f = txt "col") -> words l = [txt "p"; f; num n; num m] -> r = l \/ r = l ++ [LF] ->
  k_problem s = false ->
  color_line N s r = (mkColoring true (k_omit s) (k_edges s) (k_out s ++ unlines (hline n (m * N) :: map (dline N) (loop 1 (n + 1)))), true).
Proof.
  intros S F W R P. pose proof (raw_split l r R) as Q. destruct (raw_head "p" l r R S) as (r' & ->).
  rewrite (plain_words l _ W) in Q.
  - unfold color_line. rewrite P. unfold color_problem. rewrite Q. cbn [nth_error]. rewrite !py_int_num.
    rewrite flat_dlines, unlines_cons. unfold hline. rewrite <- !app_assoc. reflexivity.
  - intros w a [<-|[<-|[<-|[<-|[]]]]] H; [destruct H as [<-|[]]; reflexivity| |apply (num_py _ _ H)|apply (num_py _ _ H)].
    destruct F as [-> | ->]; cbn in H; intuition (subst; reflexivity).
Qed.

(** ** The whole file *)

Lemma edge_kind e l : edge_line e l -> is_comment l = false.
Proof. intros ((l' & ->) & _). reflexivity. Qed.

(** The lines after the problem line. *)
Lemma color_rest N : forall ls rs, raws ls rs -> (forall l, In l ls -> ~ In LF l) -> forall es, Forall2 edge_line es (filter (fun l => negb (is_comment l)) ls) -> forall s,
  exists cs x b, color_lines N s rs = (mkColoring (k_problem s) b (k_edges s ++ es) (k_out s ++ x), true) /\
    (forall l, In l cs -> is_comment l = true /\ In l ls) /\ (k_omit s = true -> x = []) /\ (x = unlines cs \/ es = [] /\ x ++ [LF] = unlines cs /\ last cs [] <> []).
Proof.
  assert (EV : forall ls rs l, raws (l :: ls) rs -> exists r rs', rs = r :: rs' /\ raws ls rs' /\ (r = l \/ r = l ++ [LF]) /\ (ls = [] \/ r = l ++ [LF])).
  { intros ls rs l H. inversion H; subst; eexists _, _; split; [reflexivity| |reflexivity|]; repeat split; auto. constructor. }
  induction ls as [|l ls IH]; intros rs R NL es F s.
  - inversion R; subst. inversion F; subst. exists [], [], (k_omit s). rewrite !app_nil_r. split; [destruct s; reflexivity|]. split; [intros l []|]. split; auto.
  - destruct (EV _ _ _ R) as (r & rs' & -> & R' & Hr & Hl). cbn [color_lines]. cbn [filter] in F.
    assert (NL' : forall x, In x ls -> ~ In LF x) by (intros; apply NL; right; auto).
    destruct (is_comment l) eqn:C; cbn [negb] in F.
    + assert (Cr : is_comment r = true) by (destruct Hr as [-> | ->]; [auto|apply comment_lf; auto]). rewrite (color_comment N s r Cr).
      destruct (k_omit s) eqn:O.
      * destruct (IH rs' R' NL' es F s) as (cs & x & b & E & H1 & H2 & H3). exists cs, x, b. split; [exact E|]. split; [intros y Hy; split; [|right]; apply H1; auto|].
        split; [intros _; apply H2; auto|exact H3].
      * set (s1 := mkColoring (k_problem s) false (k_edges s) (k_out s ++ r)). destruct (IH rs' R' NL' es F s1) as (cs & x & b & E & H1 & H2 & H3). exists (l :: cs), (r ++ x), b.
        split; [rewrite E; cbn [s1 k_problem k_edges k_out]; rewrite <- app_assoc; reflexivity|].
        split; [intros y [<-|Hy]; [split; [|left]; auto|split; [|right]; apply H1; auto]|]. split; [discriminate|].
        destruct Hl as [->| ->].
        -- inversion R'; subst. inversion F; subst. cbn in E. injection E as _ _ E. assert (x = []) as -> by (apply (app_inv_head (k_out s1)); rewrite app_nil_r; cbn; auto).
           rewrite app_nil_r. destruct cs as [|y cs]; [|exfalso; destruct (H1 y (or_introl eq_refl)) as (_ & [])].
           destruct Hr as [-> | ->]; [right|left; rewrite unlines_cons; reflexivity]. split; [auto|]. split; [rewrite unlines_cons; reflexivity|]. cbn. destruct l; [discriminate|congruence].
        -- destruct H3 as [->|(-> & E3 & La)]; [left; rewrite unlines_cons, <- app_assoc; reflexivity|].
           right. split; auto. split; [rewrite unlines_cons, <- app_assoc, <- app_assoc, E3; reflexivity|]. destruct cs; [cbn in La; congruence|exact La].
    + inversion F; subst. rewrite (color_edge N s x l r) by auto.
      set (s1 := mkColoring (k_problem s) true (k_edges s ++ [x]) (k_out s)). destruct (IH rs' R' NL' l0 H3 s1) as (cs & y & b & E & G1 & G2 & G3).
      specialize (G2 eq_refl). subst y. exists [], [], b. split; [rewrite E; cbn [s1 k_problem k_edges k_out]; rewrite <- app_assoc; reflexivity|].
      split; [intros z []|]. split; auto.
Qed.

(** The comments before the problem line. *)
Lemma color_before N : forall ls rs hd el, raws ls rs -> filter (fun l => negb (is_comment l)) ls = hd :: el ->
  exists c1 rest r rs', ls = c1 ++ hd :: rest /\ (forall l, In l c1 -> is_comment l = true) /\ filter (fun l => negb (is_comment l)) rest = el /\
    raws rest rs' /\ (r = hd \/ r = hd ++ [LF]) /\
    forall s, k_omit s = false -> color_lines N s rs = color_lines N (mkColoring (k_problem s) false (k_edges s) (k_out s ++ unlines c1)) (r :: rs').
Proof.
  induction ls as [|l ls IH]; intros rs hd el R F; [discriminate|]. cbn [filter] in F. destruct (is_comment l) eqn:C; cbn [negb] in F.
  - inversion R; subst; [discriminate|]. destruct (IH _ _ _ H2 F) as (c1 & rest & r & rs' & -> & H1 & H3 & H4 & H5 & H6).
    exists (l :: c1), rest, r, rs'. split; [reflexivity|]. split; [intros x [<-|Hx]; auto|]. split; auto. split; auto. split; auto.
    intros s O. cbn [color_lines]. rewrite (color_comment N s (l ++ [LF])) by (apply comment_lf; auto). rewrite O.
    etransitivity; [apply H6; reflexivity|]. cbn [k_problem k_edges k_out]. rewrite unlines_cons, <- !app_assoc. reflexivity.
  - injection F as -> F. inversion R; subst.
    + exists [], [], hd, []. split; auto. split; [intros x []|]. split; auto. split; [constructor|]. split; auto. intros s O. rewrite app_nil_r, <- O. destruct s; reflexivity.
    + exists [], ls, (hd ++ [LF]), rs0. split; auto. split; [intros x []|]. split; auto. split; auto. split; auto. intros s O. rewrite app_nil_r, <- O. destruct s; reflexivity.
Qed.

Definition color_quads (N : Z) (es : list (Z * Z)) : list (Z * Z * Z * Z) := flat_map (fun d => map (fun e => (fst e, d, snd e, d)) es) (loop 0 N).

Lemma color_clauses_lines N es : color_clauses N es = unlines (map qline (color_quads N es)).
Proof.
  unfold color_clauses, color_quads. rewrite <- flat_rows, <- flat_flat. apply flat_ext. intro d. rewrite flat_map_map. apply flat_ext. intro e. reflexivity.
Qed.

Lemma color_quads_none N : color_quads N [] = [].
Proof. unfold color_quads. induction (loop 0 N); auto. Qed.

Lemma in_color_quads N es x d y e : In (x, d, y, e) (color_quads N es) <-> d = e /\ 0 <= d < N /\ In (x, y) es.
Proof.
  unfold color_quads. rewrite in_flat_map. split.
  - intros (i & Hi & H). apply in_map_iff in H. destruct H as ((u & v) & E & H). injection E as -> -> -> <-. apply in_loop in Hi. auto.
  - intros (-> & H1 & H2). exists e. split; [apply in_loop; auto|]. apply in_map_iff. exists (x, y). auto.
Qed.

Lemma color_count N es : 0 <= N -> Z.of_nat (length (color_quads N es)) = N * Z.of_nat (length es).
Proof.
  intro HN. unfold color_quads. rewrite (flat_map_length _ (length es)) by (intros; apply map_length). rewrite Nat2Z.inj_mul, loop_length. lia.
Qed.

Theorem color_written N skip n m es t : graph_file n m es t ->
  exists ls c1 c2 t', color_file N skip t = (t', true) /\ has_lines t ls /\
    has_lines t' (c1 ++ hline n (m * N) :: map (dline N) (loop 1 (n + 1)) ++ c2 ++ map qline (color_quads N es)) /\
    forall l, In l (c1 ++ c2) -> is_comment l = true /\ In l ls.
Proof.
  intros (f & ls & hd & el & HL & FL & Sh & Hf & Wh & HE). pose proof (raws_lines t ls HL) as R.
  destruct (color_before N ls _ hd el R FL) as (c1 & rest & r & rs' & El & H1 & H2 & H3 & H4 & H5).
  pose proof HL as (NL & _).
  assert (NR : forall l, In l rest -> ~ In LF l) by (intros l Hl; apply NL; rewrite El; apply in_or_app; right; right; auto).
  subst el. set (s1 := mkColoring true false [] (unlines c1 ++ unlines (hline n (m * N) :: map (dline N) (loop 1 (n + 1))))).
  destruct (color_rest N rest rs' H3 NR es HE s1) as (c2 & x & b & E & G1 & _ & G3).
  exists ls, c1, c2. eexists. split; [|split; [exact HL|split]].
  - unfold color_file. rewrite H5 by reflexivity. cbn [color_lines k_problem k_edges k_out]. rewrite (color_head N _ n m f hd r) by auto.
    cbn [k_omit k_edges k_out app]. fold s1. rewrite E. reflexivity.
  - cbn [k_out k_edges s1 app]. rewrite color_clauses_lines. split.
    + intros l Hl. apply in_app_or in Hl. destruct Hl as [Hl|[<-|Hl]]; [apply NL; rewrite El; apply in_or_app; auto|apply hline_no_lf|].
      apply in_app_or in Hl. destruct Hl as [Hl|Hl]; [apply in_map_iff in Hl; destruct Hl as (i & <- & _); apply dline_no_lf|].
      apply in_app_or in Hl. destruct Hl as [Hl|Hl]; [apply NR, G1; auto|]. apply in_map_iff in Hl. destruct Hl as (q & <- & _). apply qline_no_lf.
    + replace (unlines (c1 ++ hline n (m * N) :: map (dline N) (loop 1 (n + 1)) ++ c2 ++ map qline (color_quads N es)))
        with ((unlines c1 ++ unlines (hline n (m * N) :: map (dline N) (loop 1 (n + 1)))) ++ unlines c2 ++ unlines (map qline (color_quads N es)))
        by (rewrite <- !unlines_app, app_comm_cons, <- !app_assoc; reflexivity).
      rewrite <- app_assoc. destruct G3 as [->|(-> & E3 & La)]; [left; reflexivity|]. right. rewrite color_quads_none. cbn [map]. change (unlines []) with (@nil ascii).
      rewrite !app_nil_r, <- !app_assoc, E3. split; auto.
      replace (c1 ++ hline n (m * N) :: map (dline N) (loop 1 (n + 1)) ++ c2) with ((c1 ++ hline n (m * N) :: map (dline N) (loop 1 (n + 1))) ++ c2) by (rewrite <- app_assoc; reflexivity).
      destruct c2 as [|y c2 _] using rev_ind; [cbn in La; congruence|]. rewrite last_last in La. rewrite app_assoc, last_last. exact La.
  - intros l Hl. apply in_app_or in Hl. destruct Hl as [Hl|Hl]; [split; auto; rewrite El; apply in_or_app; auto|].
    destruct (G1 l Hl). split; auto. rewrite El. apply in_or_app. right. right. auto.
Qed.

Lemma filter_comments f ls : (forall l, In l ls -> is_comment l = true) -> (forall l : text, is_comment l = true -> f l = false) -> filter f ls = [].
Proof.
  intros H F. induction ls as [|l ls IH]; auto. cbn [filter]. rewrite F by (apply H; left; auto). apply IH. intros; apply H; right; auto.
Qed.

Lemma color_body_kind N n es l : In l (map (dline N) (loop 1 (n + 1)) ++ map qline (color_quads N es)) -> is_comment l = false /\ is_problem l = false.
Proof. apply (keep_lines N n (color_quads N es)). Qed.

Lemma filter_all {A} (f : A -> bool) ls : (forall l, In l ls -> f l = true) -> filter f ls = ls.
Proof. induction ls as [|l ls IH]; intro H; auto. cbn [filter]. rewrite H by (left; auto). f_equal. apply IH. intros; apply H; right; auto. Qed.

Lemma color_filter f N n m es c1 c2 : (forall l, In l (c1 ++ c2) -> is_comment l = true) -> (forall l : text, is_comment l = true -> f l = false) ->
  (forall l : text, is_comment l = false -> is_problem l = false -> f l = true) ->
  filter f (c1 ++ hline n m :: map (dline N) (loop 1 (n + 1)) ++ c2 ++ map qline (color_quads N es)) =
  (if f (hline n m) then [hline n m] else []) ++ map (dline N) (loop 1 (n + 1)) ++ map qline (color_quads N es).
Proof.
  intros H F G. rewrite filter_app, (filter_comments f c1) by (auto; intros; apply H; apply in_or_app; auto). cbn [filter app]. rewrite !filter_app.
  rewrite (filter_comments f c2) by (auto; intros; apply H; apply in_or_app; auto).
  rewrite (filter_all f (map (dline N) _)), (filter_all f (map qline _)).
  - destruct (f (hline n m)); reflexivity.
  - intros l Hl. destruct (color_body_kind N n es l) as (K1 & K2); [apply in_or_app; auto|]. auto.
  - intros l Hl. destruct (color_body_kind N n es l) as (K1 & K2); [apply in_or_app; auto|]. auto.
Qed.

Definition color_problem_of (N n : Z) (es : list (Z * Z)) : problem := qproblem n N (color_quads N es).

Theorem color_documented N skip n es t : 0 <= n -> 0 <= N -> graph_file n (Z.of_nat (length es)) es t ->
  exists t', color_file N skip t = (t', true) /\ documented_as (txt "cnf") (color_problem_of N n es) t'.
Proof.
  intros Hn HN G. destruct (color_written N skip _ _ _ _ G) as (ls & c1 & c2 & t' & E & _ & HL & HC). exists t'. split; auto.
  eapply qdocumented; [auto|exact HL|]. rewrite color_filter; [|intros l Hl; apply HC; auto|intros l Hl; rewrite Hl; reflexivity|intros l Hl _; rewrite Hl; reflexivity].
  rewrite color_count by auto. rewrite (Z.mul_comm N). reflexivity.
Qed.

Theorem color_accepted N skip n m es t : 0 <= n <= int_max -> 0 <= m * N <= int_max -> graph_file n m es t ->
  exists t', color_file N skip t = (t', true) /\ accepted (color_problem_of N n es) t' /\
    (forall k, lines_below k t -> 70 <= k -> 0 <= N <= int_max -> (forall u v, In (u, v) es -> 1 <= u <= n /\ 1 <= v <= n) -> lines_below k t').
Proof.
  intros Hn Hm G. destruct (color_written N skip _ _ _ _ G) as (ls & c1 & c2 & t' & E & HT & HL & HC). exists t'. split; auto. split.
  - eapply qaccepted; [lia|exact HL| |].
    + intros l Hl Hp. apply in_app_or in Hl. destruct Hl as [Hl|[<-|Hl]].
      * destruct (HC l) as (K & _); [apply in_or_app; auto|]. destruct l as [|a l]; [discriminate|]. apply Ascii.eqb_eq in K, Hp. congruence.
      * apply hline_problem; auto.
      * apply in_app_or in Hl. destruct Hl as [Hl|Hl]; [destruct (color_body_kind N n es l) as (_ & K); [apply in_or_app; auto|congruence]|].
        apply in_app_or in Hl. destruct Hl as [Hl|Hl]; [|destruct (color_body_kind N n es l) as (_ & K); [apply in_or_app; auto|congruence]].
        destruct (HC l) as (K & _); [apply in_or_app; auto|]. destruct l as [|a l]; [discriminate|]. apply Ascii.eqb_eq in K, Hp. congruence.
    + rewrite color_filter; [reflexivity|intros l Hl; apply HC; auto|intros l Hl; unfold keep; rewrite Hl; reflexivity|].
      intros l H1 H2. unfold keep. rewrite H1, H2. reflexivity.
  - intros k LB Hk HN HE. eapply lines_below_intro; [exact HL|]. intros l Hl.
    assert (C : forall l, In l (c1 ++ c2) -> Z.of_nat (length l) < k) by (intros x Hx; apply (LB ls HT); apply HC; auto).
    apply in_app_or in Hl. destruct Hl as [Hl|[<-|Hl]]; [apply C; apply in_or_app; auto| |].
    + unfold hline. rewrite !app_length. cbn [txt list_ascii_of_string length]. pose proof (num_length_int n Hn). pose proof (num_length_int (m * N) Hm). lia.
    + apply in_app_or in Hl. destruct Hl as [Hl|Hl].
      * apply in_map_iff in Hl. destruct Hl as (i & <- & Hi). apply in_loop in Hi. unfold dline. rewrite !app_length. cbn [txt list_ascii_of_string length].
        pose proof (num_length_int i ltac:(lia)). pose proof (num_length_int N HN). lia.
      * apply in_app_or in Hl. destruct Hl as [Hl|Hl]; [apply C; apply in_or_app; auto|]. apply in_map_iff in Hl. destruct Hl as ((((x & d) & y) & e) & <- & Hq).
        apply in_color_quads in Hq. destruct Hq as (-> & H1 & H2). specialize (HE _ _ H2). cbn [qline]. unfold ne_line. rewrite !app_length. cbn [txt list_ascii_of_string length].
        pose proof (num_length_int x ltac:(lia)). pose proof (num_length_int y ltac:(lia)). pose proof (num_length_int e ltac:(lia)). lia.
Qed.

Theorem color_describes N n es : 0 <= n -> (forall u v, In (u, v) es -> 1 <= u <= n /\ 1 <= v <= n) ->
  describes (color_problem_of N n es) n N (proper es).
Proof.
  intros Hn HE. apply qdescribes; auto. intros a A. unfold proper. split.
  - intros H x d y e Hq (E1 & E2). apply in_color_quads in Hq. destruct Hq as (-> & _ & Hq). apply (H _ _ Hq). congruence.
  - intros H u v Huv E. destruct (HE u v Huv) as (Hu & Hv). apply (H u (a u) v (a u)); [|split; auto]. apply in_color_quads. split; auto.
Qed.

Lemma color_wf N n es : 0 <= n -> 2 <= N -> (forall u v, In (u, v) es -> 1 <= u <= n /\ 1 <= v <= n) -> wf (color_problem_of N n es).
Proof.
  intros Hn HN HE. apply qwf; auto. intros (((x & d) & y) & e) Hq. apply in_color_quads in Hq. destruct Hq as (-> & H1 & H2). specialize (HE _ _ H2). cbn. lia.
Qed.

Lemma color_no_repeats N n es : (forall u, ~ In (u, u) es) -> no_repeats (color_problem_of N n es).
Proof. intro H. apply qno_repeats. intros x d y e Hq ->. apply in_color_quads in Hq. apply (H y). tauto. Qed.

Lemma color_fits N n es : 0 <= n <= int_max -> 0 <= N <= int_max -> N * Z.of_nat (length es) <= int_max -> fits_int (color_problem_of N n es).
Proof. intros. apply qfits; try lia. rewrite color_count; lia. Qed.
