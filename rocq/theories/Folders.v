(** * Lemmas about the conversion of folders of graphs *)

From Coq Require Import Ascii String.
From Verif Require Import Spec Outcome TextSpec ModelText ModelEncode ModelCli Cli ModelBench ModelFolders FoldersSpec Encode Bench5.
#[local] Open Scope char_scope.
#[local] Open Scope list_scope.
#[local] Open Scope Z_scope.

Lemma is_col_iff f : is_col f = true <-> exists g, f = g ++ txt ".col".
Proof.
  unfold is_col. split.
  - intro H. exists (rev (skipn 4 (rev f))).
    assert (E : rev f = ["l"; "o"; "c"; "."] ++ skipn 4 (rev f)).
    { destruct (rev f) as [|a [|b [|c [|d r]]]]; try discriminate H;
        try (destruct a as [[] [] [] [] [] [] [] []]; discriminate H);
        try (destruct a as [[] [] [] [] [] [] [] []]; try discriminate H; destruct b as [[] [] [] [] [] [] [] []]; discriminate H);
        try (destruct a as [[] [] [] [] [] [] [] []]; try discriminate H; destruct b as [[] [] [] [] [] [] [] []]; try discriminate H; destruct c as [[] [] [] [] [] [] [] []]; discriminate H).
      destruct a as [[] [] [] [] [] [] [] []]; try discriminate H. destruct b as [[] [] [] [] [] [] [] []]; try discriminate H.
      destruct c as [[] [] [] [] [] [] [] []]; try discriminate H. destruct d as [[] [] [] [] [] [] [] []]; try discriminate H. reflexivity. }
    apply (f_equal (@rev ascii)) in E. rewrite rev_involutive in E. rewrite E at 1. rewrite rev_app_distr. reflexivity.
  - intros (g & ->). rewrite rev_app_distr. reflexivity.
Qed.

Lemma stem_col g : stem (g ++ txt ".col") = g.
Proof. unfold stem. rewrite rev_app_distr. cbn. apply rev_involutive. Qed.
Lemma result_col N g : result_name N (g ++ txt ".col") = g ++ txt "_N" ++ num N ++ txt ".dimacs".
Proof. unfold result_name. rewrite stem_col. reflexivity. Qed.
Lemma result_inj N f f' : is_col f = true -> is_col f' = true -> result_name N f = result_name N f' -> f = f'.
Proof.
  intros H H' E. apply is_col_iff in H. apply is_col_iff in H'. destruct H as (g & ->). destruct H' as (g' & ->).
  rewrite !result_col in E. apply app_inv_tail in E. subst. reflexivity.
Qed.

Lemma stop_iff N : forall ls s, match color_stop N s ls with None => snd (color_lines N s ls) = true | Some _ => snd (color_lines N s ls) = false end.
Proof.
  induction ls as [|l ls IH]; intro s; cbn [color_stop color_lines]; [reflexivity|]. destruct (color_line N s l) as (s' & []); [apply IH|reflexivity].
Qed.
Lemma file_iff N skip t : match color_stop N (mkColoring false false [] []) (py_lines [] t) with None => snd (color_file N skip t) = true | Some _ => snd (color_file N skip t) = false end.
Proof.
  pose proof (stop_iff N (py_lines [] t) (mkColoring false false [] [])) as H. unfold color_file. destruct (color_stop _ _ _); destruct (color_lines _ _ _) as (s & []); cbn in *; try discriminate; auto.
  destruct skip; reflexivity.
Qed.
Lemma ok_stop N skip t : snd (color_file N skip t) = true -> color_stop N (mkColoring false false [] []) (py_lines [] t) = None.
Proof. pose proof (file_iff N skip t). destruct (color_stop _ _ _); congruence. Qed.

Lemma place_same fs f t : place fs f t f = Some t.
Proof. unfold place. destruct (text_eqb_spec f f); congruence. Qed.
Lemma place_other fs f t g : g <> f -> place fs f t g = fs g.
Proof. unfold place. destruct (text_eqb_spec g f); congruence. Qed.

(** The report of the first line with an error. *)
Lemma py_white a : py_space a = true <-> white a.
Proof. unfold py_space, white. rewrite orb_true_iff, !andb_true_iff, !Nat.leb_le. tauto. Qed.
Lemma drop_spec t : exists u, t = u ++ drop_space t /\ (forall a, In a u -> white a) /\ forall a r, drop_space t = a :: r -> ~ white a.
Proof.
  induction t as [|a t (u & E & W & H)]; [exists []; split; [reflexivity|]; split; [intros ? []|discriminate]|]. cbn [drop_space]. destruct (py_space a) eqn:P.
  - exists (a :: u). split; [cbn; congruence|]. split; [|exact H]. intros b [<-|I]; [apply py_white; auto|auto].
  - exists []. split; [reflexivity|]. split; [intros ? []|]. intros b r Q. injection Q as <- _. rewrite <- py_white. congruence.
Qed.
Lemma strip_spec l : stripped l (py_strip l).
Proof.
  unfold py_strip. destruct (drop_spec l) as (u & E & W & H). destruct (drop_spec (rev (drop_space l))) as (v & E' & W' & H').
  set (x := drop_space (rev (drop_space l))) in *. assert (EL : drop_space l = rev x ++ rev v) by (rewrite <- rev_app_distr, <- E', rev_involutive; reflexivity).
  split; [|split].
  - exists u, (rev v). split; [rewrite <- EL; exact E|]. intros a I. apply in_app_or in I. destruct I as [I|I]; [auto|apply W'; apply in_rev; exact I].
  - intros a r Q. apply (H a (r ++ rev v)). rewrite EL, Q. reflexivity.
  - intros a r Q. apply (H' a (rev r)). rewrite <- (rev_involutive x), Q, rev_app_distr. reflexivity.
Qed.
Lemma stop_report N : forall ls s e, color_stop N s ls = Some e -> exists before after, ls = before ++ snd e :: after /\
  (k_problem s = false -> reported before (snd e) (fst e)) /\
  (k_problem s = true -> forall pre, (exists b, In b pre /\ starts "p" b) -> reported (pre ++ before) (snd e) (fst e)).
Proof.
  assert (K : forall s l before, (k_problem s = true -> exists b, In b before /\ starts "p" b) -> (k_problem s = false -> forall b, In b before -> ~ starts "p" b) ->
    (match l with "c" :: _ => False | _ => True end) -> reported before l (color_error s l)).
  { intros s l before A B C. unfold reported, color_error.
    assert (Q : forall a, starts a l -> match l with b :: _ => b = a | [] => False end) by (intros a (r & ->); reflexivity).
    destruct l as [|a l]; [right; right; right; repeat split; try (intro X; apply (Q _ X))|].
    destruct (Ascii.ascii_dec a "p") as [->|P].
    { destruct (k_problem s); [left|right; left]; (split; [eexists; reflexivity|]); split; auto. }
    destruct (Ascii.ascii_dec a "e") as [->|P'].
    { right. right. left. split; [eexists; reflexivity|reflexivity]. }
    right. right. right. split; [intro X; apply (P (Q _ X))|]. split; [intro X; apply (P' (Q _ X))|].
    split; [intro X; pose proof (Q _ X); subst a; exact C|].
    destruct a as [[] [] [] [] [] [] [] []]; try reflexivity; congruence. }
  assert (CL : forall s l s', color_line N s l = (s', false) -> match l with "c" :: _ => False | _ => True end).
  { intros s l s' E. destruct l as [|a l]; [exact I|]. destruct (Ascii.ascii_dec a "c") as [->|P]; [discriminate E|]. destruct a as [[] [] [] [] [] [] [] []]; try exact I; congruence. }
  assert (CP : forall s l s', color_line N s l = (s', true) -> (k_problem s = true -> k_problem s' = true /\ ~ starts "p" l) /\
     (k_problem s = false -> (starts "p" l /\ k_problem s' = true) \/ (~ starts "p" l /\ k_problem s' = false))).
  { intros s l s' E. destruct (list_eq_dec Ascii.ascii_dec (firstn 1 l) ["p"]) as [P|P].
    - destruct l as [|a l]; [discriminate P|]. injection P as ->. cbn [color_line] in E. destruct (k_problem s) eqn:KP; [discriminate E|].
      split; [discriminate|]. intros _. left. split; [eexists; reflexivity|]. destruct (color_problem N _); [|discriminate E]. injection E as <-. reflexivity.
    - assert (NP : ~ starts "p" l) by (intros (r & ->); apply P; reflexivity).
      assert (S : k_problem s' = k_problem s).
      { destruct l as [|a l]; [discriminate E|]. destruct (Ascii.ascii_dec a "p") as [->|P1]; [exfalso; apply NP; eexists; reflexivity|].
        destruct (Ascii.ascii_dec a "e") as [->|P2].
        { cbn [color_line] in E. destruct (firstn 2 _) as [|x [|y [|]]]; try discriminate E. destruct (py_int x); [|discriminate E]. destruct (py_int y); [|discriminate E].
          injection E as <-. reflexivity. }
        destruct (Ascii.ascii_dec a "c") as [->|P3].
        { cbn [color_line] in E. destruct (k_omit s); injection E as <-; reflexivity. }
        destruct a as [[] [] [] [] [] [] [] []]; try discriminate E; congruence. }
      rewrite S. split; intros ->; auto. }
  induction ls as [|l ls IH]; intros s e E; [discriminate E|]. cbn [color_stop] in E. destruct (color_line N s l) as (s' & []) eqn:L.
  - destruct (IH s' e E) as (before & after & -> & R1 & R2). exists (l :: before), after. split; [reflexivity|]. destruct (CP _ _ _ L) as (C1 & C2). split.
    + intro KP. destruct (C2 KP) as [(P & KP')|(P & KP')].
      * apply (R2 KP' [l]). exists l. split; [left; reflexivity|exact P].
      * specialize (R1 KP'). unfold reported in *. destruct R1 as [(A & (b & B1 & B2) & C)|[(A & B & C)|R1]]; [left; split; auto; split; auto; exists b; split; [right; auto|auto]|right; left|right; right; exact R1].
        split; [auto|]. split; [|auto]. intros b [<-|I]; auto.
    + intros KP pre (b & B1 & B2). destruct (C1 KP) as (KP' & _). specialize (R2 KP' (pre ++ [l])). rewrite <- app_assoc in R2. apply R2. exists b. split; [apply in_or_app; left; auto|auto].
  - injection E as <-. exists [], ls. cbn [fst snd]. split; [reflexivity|]. split.
    + intro KP. apply K; [congruence|intros _ b []|apply (CL _ _ _ L)].
    + intros KP pre X. rewrite app_nil_r. apply K; [auto|congruence|apply (CL _ _ _ L)].
Qed.

(** All files are converted. *)
Lemma all_ok N skip : forall l fs, (forall f t, In (f, t) l -> is_col f = true) -> NoDup (map fst l) ->
  (skip = true \/ forall f t, In (f, t) l -> snd (color_file N skip t) = true) ->
  (forall f t, In (f, t) l -> snd (color_all N skip l fs) (result_name N f) = Some (fst (color_file N skip t))) /\
  (forall g, (forall f t, In (f, t) l -> g <> result_name N f) -> snd (color_all N skip l fs) g = fs g).
Proof.
  induction l as [|(f & t) l IH]; intros fs C ND OK; [split; [intros ? ? []|reflexivity]|].
  cbn [map fst] in ND. inversion ND as [|? ? N1 N2]; subst.
  set (fs1 := place fs (result_name N f) (fst (color_file N skip t))).
  assert (E : snd (color_all N skip ((f, t) :: l) fs) = snd (color_all N skip l fs1)).
  { cbn [color_all]. fold fs1. destruct (color_stop N _ _) as [e|] eqn:ES.
    - destruct OK as [->|OK]; [destruct (color_all N true l fs1); reflexivity|].
      specialize (OK f t (or_introl eq_refl)). apply ok_stop in OK. congruence.
    - destruct (color_all N skip l fs1); reflexivity. }
  rewrite E. destruct (IH fs1) as (I1 & I2); auto.
  { intros; eapply C; right; eauto. }
  { destruct OK as [->|OK]; [left; reflexivity|right]. intros; eapply OK; right; eauto. }
  split.
  - intros f' t' [Q|Q].
    + injection Q as <- <-. rewrite I2; [apply place_same|]. intros f2 t2 H2 R.
      apply result_inj in R; [|apply (C f t); left; reflexivity|apply (C f2 t2); right; exact H2].
      apply N1. rewrite R. change f2 with (fst (f2, t2)). apply in_map. exact H2.
    + apply I1; auto.
  - intros g G. rewrite I2; [apply place_other; apply (G f t); left; reflexivity|]. intros f2 t2 H2. apply (G f2 t2). right. exact H2.
Qed.

Definition cols (dir : list (text * text)) : list (text * text) := filter (fun x => is_col (fst x)) dir.
Lemma in_cols dir f t : In (f, t) (cols dir) <-> In (f, t) dir /\ is_col f = true.
Proof. unfold cols. rewrite filter_In. reflexivity. Qed.
Lemma nodup_cols dir : NoDup (map fst dir) -> NoDup (map fst (cols dir)).
Proof.
  unfold cols. induction dir as [|(f & t) dir IH]; intro H; [constructor|]. cbn [map fst] in H. inversion H as [|? ? N1 N2]; subst. cbn [filter].
  destruct (is_col (fst (f, t))); [|auto]. cbn [map fst]. constructor; auto. intro Q. apply N1. apply in_map_iff in Q. destruct Q as (x & E & Q).
  apply filter_In in Q. apply in_map_iff. exists x. tauto.
Qed.
Lemma script_files N skip dir fs : snd (coloring_script is_col N skip dir fs) = snd (color_all N skip (cols dir) fs).
Proof. unfold coloring_script. fold (cols dir). destruct (cols dir); reflexivity. Qed.

Lemma script_ok N skip dir fs : NoDup (map fst dir) ->
  (skip = true \/ forall g t, In (g ++ txt ".col", t) dir -> snd (color_file N skip t) = true) ->
  (forall g t, In (g ++ txt ".col", t) dir ->
     snd (coloring_script is_col N skip dir fs) (g ++ txt "_N" ++ num N ++ txt ".dimacs") = Some (fst (color_file N skip t))) /\
  (forall h, (forall g t, In (g ++ txt ".col", t) dir -> h <> g ++ txt "_N" ++ num N ++ txt ".dimacs") ->
     snd (coloring_script is_col N skip dir fs) h = fs h).
Proof.
  intros ND OK. rewrite script_files. destruct (all_ok N skip (cols dir) fs) as (A & B).
  - intros f t H. apply in_cols in H. apply H.
  - apply nodup_cols; auto.
  - destruct OK as [->|OK]; [left; reflexivity|right]. intros f t H. apply in_cols in H. destruct H as (H & C). apply is_col_iff in C. destruct C as (g & ->). apply (OK g); auto.
  - split.
    + intros g t H. rewrite <- result_col. apply A. apply in_cols. split; auto. apply is_col_iff. eauto.
    + intros h H. apply B. intros f t Q. apply in_cols in Q. destruct Q as (Q & C). apply is_col_iff in C. destruct C as (g & ->). rewrite result_col. apply (H g t); auto.
Qed.

(** A file with an error. *)
Lemma all_stop N f t post : snd (color_file N false t) = false -> forall pre fs,
  (forall g u, In (g, u) pre -> snd (color_file N false u) = true) ->
  snd (color_all N false (pre ++ (f, t) :: post) fs) = snd (color_all N false (pre ++ [(f, t)]) fs) /\
  (forall h, (forall g u, In (g, u) (pre ++ [(f, t)]) -> h <> result_name N g) -> snd (color_all N false (pre ++ (f, t) :: post) fs) h = fs h) /\
  exists e, color_stop N (mkColoring false false [] []) (py_lines [] t) = Some e /\
    fst (color_all N false (pre ++ (f, t) :: post) fs) = flat (fun x => txt "converting " ++ fst x ++ [LF]) (pre ++ [(f, t)]) ++ error_report f e.
Proof.
  intro B. induction pre as [|(g & u) pre IH]; intros fs OK; cbn [app color_all].
  - pose proof (file_iff N false t) as K. destruct (color_stop N _ _) as [e|] eqn:EE; [|congruence]. split; [reflexivity|]. split.
    + intros h H. cbn [snd]. apply place_other. apply (H f t). left. reflexivity.
    + exists e. split; [reflexivity|]. cbn [fst]. unfold flat. cbn [map concat fst]. rewrite app_nil_r. reflexivity.
  - pose proof (OK g u (or_introl eq_refl)) as G. rewrite (ok_stop _ _ _ G). set (fs1 := place fs _ _).
    destruct (IH fs1) as (I1 & I2 & e & I4 & I3). { intros; eapply OK; right; eauto. }
    destruct (color_all N false (pre ++ (f, t) :: post) fs1) as (o1 & f1). destruct (color_all N false (pre ++ [(f, t)]) fs1) as (o2 & f2). cbn [fst snd] in *.
    split; [exact I1|]. split.
    + intros h H. rewrite I2; [apply place_other; apply (H g u); left; reflexivity|]. intros g' u' Q. apply (H g' u'). right. exact Q.
    + exists e. split; [exact I4|]. rewrite I3. unfold flat. cbn [map concat fst]. rewrite <- !app_assoc. reflexivity.
Qed.

(** ** The calls *)

Lemma calls dir : forall Ns o own fs, NoDup Ns ->
  let r := fold_left (convert_step dir) Ns (o, own, fs) in
  snd (fst r) = own ++ flat (fun N => txt "N=" ++ num N ++ txt " DONE" ++ [LF]) Ns /\
  fst (fst r) = o ++ flat (fun N => fst (coloring_script is_col N false dir (fs N))) Ns /\
  forall N, snd r N = if in_dec Z.eq_dec N Ns then snd (coloring_script is_col N false dir (fs N)) else fs N.
Proof.
  induction Ns as [|N Ns IH]; intros o own fs ND r.
  - unfold r. cbn. rewrite !app_nil_r. auto.
  - inversion ND as [|? ? N1 N2]; subst. unfold r. cbn [fold_left].
    destruct (coloring_script is_col N false dir (fs N)) as (o' & fs') eqn:E.
    set (fs2 := fun i => if i =? N then fs' else fs i).
    assert (S1 : convert_step dir (o, own, fs) N = (o ++ o', own ++ txt "N=" ++ num N ++ txt " DONE" ++ [LF], fs2)) by (unfold convert_step; rewrite E; reflexivity).
    rewrite S1. clear S1.
    destruct (IH (o ++ o') (own ++ txt "N=" ++ num N ++ txt " DONE" ++ [LF]) fs2 N2) as (A & B & C).
    assert (F : forall i, In i Ns -> fs2 i = fs i). { intros i I. unfold fs2. destruct (Z.eqb_spec i N); [subst; contradiction|reflexivity]. }
    split; [|split].
    + etransitivity; [exact A|]. unfold flat. cbn [map concat]. rewrite <- !app_assoc. reflexivity.
    + etransitivity; [exact B|]. unfold flat. cbn [map concat]. rewrite E. cbn [fst]. rewrite <- app_assoc. f_equal. f_equal. f_equal. apply map_ext_in. intros i I. rewrite F; auto.
    + intro i. etransitivity; [exact (C i)|]. destruct (in_dec Z.eq_dec i Ns) as [I|I].
      * rewrite F by auto. destruct (in_dec Z.eq_dec i (N :: Ns)) as [_|Q]; [reflexivity|exfalso; apply Q; right; auto].
      * unfold fs2. destruct (Z.eqb_spec i N) as [->|Ne].
        -- destruct (in_dec Z.eq_dec N (N :: Ns)) as [_|Q]; [rewrite E; reflexivity|exfalso; apply Q; left; auto].
        -- destruct (in_dec Z.eq_dec i (N :: Ns)) as [[Q|Q]|_]; [congruence|contradiction|reflexivity].
Qed.

Lemma nodup_loop i j : NoDup (loop i j).
Proof. unfold loop. apply FinFun.Injective_map_NoDup; [|apply seq_NoDup]. intros a b H. lia. Qed.

Lemma folders_run m dir fs M : py_int (py_strip m) = Some M ->
  exists o own fs', convert_folders m dir fs = Some (o, own, fs') /\
    own = flat (fun N => txt "N=" ++ num N ++ txt " DONE" ++ [LF]) (loop 3 (M + 1)) /\
    o = flat (fun N => fst (coloring_script is_col N false dir (fs N))) (loop 3 (M + 1)) /\
    (forall N, 3 <= N <= M -> fs' N = snd (coloring_script is_col N false dir (fs N))) /\
    (forall N, ~ 3 <= N <= M -> fs' N = fs N).
Proof.
  intro E. unfold convert_folders. rewrite E. destruct (calls dir (loop 3 (M + 1)) [] [] fs (nodup_loop _ _)) as (A & B & C).
  destruct (fold_left _ _ _) as ((o & own) & fs'). cbn [fst snd] in *. exists o, own, fs'. split; [reflexivity|]. split; [exact A|]. split; [exact B|].
  split; intros N H; rewrite C; destruct (in_dec Z.eq_dec N (loop 3 (M + 1))) as [I|I]; auto.
  - exfalso. apply I. apply in_loop. lia.
  - apply in_loop in I. lia.
Qed.

Lemma drop_white u : (forall a, In a u -> a = SP \/ a = LF) -> forall t, drop_space (u ++ t) = drop_space t.
Proof.
  induction u as [|a u IH]; intros H t; [reflexivity|]. cbn [app drop_space].
  assert (E : py_space a = true) by (destruct (H a (or_introl eq_refl)) as [->| ->]; reflexivity). rewrite E. apply IH. intros; apply H; right; auto.
Qed.
Lemma drop_solid t r : t <> [] -> (forall a, In a t -> py_space a = false) -> drop_space (t ++ r) = t ++ r.
Proof. destruct t as [|a t]; [congruence|]. intros _ H. cbn. rewrite (H a); [reflexivity|left; reflexivity]. Qed.
Lemma strip_num u v M : (forall a, In a (u ++ v) -> a = SP \/ a = LF) -> py_strip (u ++ num M ++ v) = num M.
Proof.
  intro H. assert (NE : num M <> []) by (intro E; pose proof (py_int_num M) as P; rewrite E in P; discriminate P).
  unfold py_strip. rewrite drop_white by (intros; apply H; apply in_or_app; auto). rewrite drop_solid; [|exact NE|apply num_py].
  rewrite rev_app_distr, drop_white by (intros a I; apply H; apply in_or_app; right; apply in_rev; exact I).
  rewrite <- (app_nil_r (rev (num M))). rewrite drop_solid, app_nil_r; [apply rev_involutive| |].
  - intro E. apply NE. rewrite <- (rev_involutive (num M)), E. reflexivity.
  - intros a I. apply in_rev in I. apply (num_py M); auto.
Qed.

Lemma folders_known u v dir fs M : (forall a, In a (u ++ v) -> a = SP \/ a = LF) ->
  exists o own fs', convert_folders (u ++ num M ++ v) dir fs = Some (o, own, fs') /\
    own = flat (fun N => txt "N=" ++ num N ++ txt " DONE" ++ [LF]) (loop 3 (M + 1)) /\
    o = flat (fun N => fst (coloring_script is_col N false dir (fs N))) (loop 3 (M + 1)) /\
    (forall N, 3 <= N <= M -> fs' N = snd (coloring_script is_col N false dir (fs N))) /\
    (forall N, ~ 3 <= N <= M -> fs' N = fs N).
Proof. intro H. apply folders_run. rewrite strip_num; auto. apply py_int_num. Qed.

Lemma script_stop N dir fs pre f t post : NoDup (map fst dir) ->
  filter (fun x => is_col (fst x)) dir = pre ++ (f, t) :: post ->
  (forall g u, In (g, u) pre -> snd (color_file N false u) = true) -> snd (color_file N false t) = false ->
  (forall g u, In (g ++ txt ".col", u) post ->
     snd (coloring_script is_col N false dir fs) (g ++ txt "_N" ++ num N ++ txt ".dimacs") = fs (g ++ txt "_N" ++ num N ++ txt ".dimacs")) /\
  exists before l after kind line, py_lines [] t = before ++ l :: after /\ reported before l kind /\ stripped l line /\ fst (coloring_script is_col N false dir fs) =
    flat (fun x => txt "converting " ++ fst x ++ [LF]) (pre ++ [(f, t)]) ++
    kind ++ txt " in " ++ f ++ [LF] ++ txt "Line number 1:" ++ [LF] ++ ["034"%char] ++ line ++ ["034"%char] ++ [LF].
Proof.
  intros ND EF OK BAD. pose proof (nodup_cols dir ND) as NC.
  assert (IC : forall g u, In (g, u) (cols dir) -> is_col g = true) by (intros g u I; apply in_cols in I; apply I).
  unfold cols in *. rewrite EF in NC, IC.
  assert (ES : coloring_script is_col N false dir fs = color_all N false (pre ++ (f, t) :: post) fs).
  { unfold coloring_script. rewrite EF. destruct pre; reflexivity. }
  rewrite ES. destruct (all_stop N f t post BAD pre fs OK) as (_ & A & e & R & B). split.
  - intros g u I. apply A. intros g' u' I' E. rewrite <- result_col in E. apply result_inj in E.
    + change (pre ++ (f, t) :: post) with (pre ++ ([(f, t)] ++ post)) in NC. rewrite app_assoc, map_app in NC.
      assert (J1 : In g' (map fst (pre ++ [(f, t)]))) by (change g' with (fst (g', u')); apply in_map; exact I').
      assert (J2 : In (g ++ txt ".col") (map fst post)) by (change (g ++ txt ".col") with (fst (g ++ txt ".col", u)); apply in_map; exact I).
      rewrite E in J2. revert NC J1 J2. generalize (map fst (pre ++ [(f, t)])) as X, (map fst post) as Y. clear. intros X Y.
      induction X as [|x X IH]; intros ND J1 J2; [destruct J1|]. cbn in ND. inversion ND as [|? ? N1 N2]; subst.
      destruct J1 as [->|J1]; [apply N1; apply in_or_app; right; auto|auto].
    + apply (IC _ u). apply in_or_app. right. right. exact I.
    + apply (IC _ u'). apply in_app_or in I'. apply in_or_app. destruct I' as [I'|[I'|[]]]; [left; auto|right; left; auto].
  - destruct (stop_report _ _ _ _ R) as (before & after & E1 & E2 & _). exists before, (snd e), after, (fst e), (py_strip (snd e)).
    split; [exact E1|]. split; [apply E2; reflexivity|]. split; [apply strip_spec|]. rewrite B. reflexivity.
Qed.

Lemma script_none N skip dir fs : (forall g t, ~ In (g ++ txt ".col", t) dir) ->
  coloring_script is_col N skip dir fs = (txt "No such file(s)." ++ [LF], fs).
Proof.
  intro H. unfold coloring_script. destruct (filter (fun x => is_col (fst x)) dir) as [|(f & t) l] eqn:E; [reflexivity|]. exfalso.
  assert (I : In (f, t) (filter (fun x => is_col (fst x)) dir)) by (rewrite E; left; reflexivity).
  apply filter_In in I. destruct I as (I & C). apply is_col_iff in C. destruct C as (g & C). cbn in C. subst f. exact (H g t I).
Qed.
