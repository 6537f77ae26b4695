(** * C90: converting folders of graphs

    [coloring_script is_col N skip dir fs] is what coloring_script.py prints for the mask *.col and
    the folder [dir], and its result folder, which had the files [fs] before.  [convert_folders m
    dir fs] is the same for convert_folders.py, [m] being the file M.in and [fs N] the folder
    N<N>_DIMACS: what the calls print, what the program prints, the folders. *)

From Coq Require Import Ascii String.
From Verif Require Import Spec Outcome State ModelBuild Observe Cases TextSpec ModelText ModelRead CliSpec ModelCli EncodeSpec ModelEncode
  Text FileCases MainSpec MainFacts BenchSpec ModelBench PropBench ModelFolders FoldersSpec Folders.
#[local] Open Scope char_scope.
#[local] Open Scope list_scope.
#[local] Open Scope Z_scope.

(** If no graph file has an error, or with -s, every graph file gets its own result file with the
    text of C59, and nothing else changes. *)
Theorem C90_script N skip dir fs : NoDup (map fst dir) ->
  (skip = true \/ forall g t, In (g ++ txt ".col", t) dir -> snd (color_file N skip t) = true) ->
  (forall g t, In (g ++ txt ".col", t) dir ->
     snd (coloring_script is_col N skip dir fs) (g ++ txt "_N" ++ num N ++ txt ".dimacs") = Some (fst (color_file N skip t))) /\
  (forall h, (forall g t, In (g ++ txt ".col", t) dir -> h <> g ++ txt "_N" ++ num N ++ txt ".dimacs") ->
     snd (coloring_script is_col N skip dir fs) h = fs h).
Proof. exact (script_ok N skip dir fs). Qed.
Print Assumptions C90_script.

(** Without graph files nothing is written. *)
Theorem C90_none N skip dir fs : (forall g t, ~ In (g ++ txt ".col", t) dir) ->
  coloring_script is_col N skip dir fs = (txt "No such file(s)." ++ [LF], fs).
Proof. exact (script_none N skip dir fs). Qed.
Print Assumptions C90_none.

Example C90_none_case : forall g t, ~ In (g ++ txt ".col", t) [(txt "M.in", txt "3")].
Proof. intros g t [H|[]]. injection H as H _. apply (f_equal (@rev ascii)) in H. rewrite rev_app_distr in H. discriminate H. Qed.

(** Without -s the first graph file with an error is the last that is looked at.  The report says
    what is wrong with the line [l] and shows it; whatever line it is, line 1 is reported.
    [reported] and [stripped] are in FoldersSpec.v; [py_lines [] t] are the lines of the file. *)
Theorem C90_stop N dir fs pre f t post : NoDup (map fst dir) ->
  filter (fun x => is_col (fst x)) dir = pre ++ (f, t) :: post ->
  (forall g u, In (g, u) pre -> snd (color_file N false u) = true) -> snd (color_file N false t) = false ->
  (forall g u, In (g ++ txt ".col", u) post ->
     snd (coloring_script is_col N false dir fs) (g ++ txt "_N" ++ num N ++ txt ".dimacs") = fs (g ++ txt "_N" ++ num N ++ txt ".dimacs")) /\
  exists before l after kind line, py_lines [] t = before ++ l :: after /\ reported before l kind /\ stripped l line /\
    fst (coloring_script is_col N false dir fs) =
    flat (fun x => txt "converting " ++ fst x ++ [LF]) (pre ++ [(f, t)]) ++
    kind ++ txt " in " ++ f ++ [LF] ++ txt "Line number 1:" ++ [LF] ++ ["034"%char] ++ line ++ ["034"%char] ++ [LF].
Proof. exact (script_stop N dir fs pre f t post). Qed.
Print Assumptions C90_stop.

(** convert_folders.py converts for 3, ..., M colours, into a folder for each, and says so each time;
    white space around the number in M.in does not matter. *)
Theorem C90_folders u v dir fs M : (forall a, In a (u ++ v) -> a = SP \/ a = LF) ->
  exists o own fs', convert_folders (u ++ num M ++ v) dir fs = Some (o, own, fs') /\
    own = flat (fun N => txt "N=" ++ num N ++ txt " DONE" ++ [LF]) (loop 3 (M + 1)) /\
    o = flat (fun N => fst (coloring_script is_col N false dir (fs N))) (loop 3 (M + 1)) /\
    (forall N, 3 <= N <= M -> fs' N = snd (coloring_script is_col N false dir (fs N))) /\
    (forall N, ~ 3 <= N <= M -> fs' N = fs N).
Proof. exact (folders_known u v dir fs M). Qed.
Print Assumptions C90_folders.

(** A graph file whose colouring problems with up to M colours the solver can read. *)
Definition usable_graph (M n k : Z) (es : list (Z * Z)) (t : text) : Prop :=
  0 <= n <= int_max /\ 0 <= k /\ k * M <= int_max /\ M * Z.of_nat (length es) <= int_max /\
  (forall u v, In (u, v) es -> 1 <= u <= n /\ 1 <= v <= n /\ u <> v) /\ graph_file n k es t /\ lines_below 3000 t.

(** If all graph files are such files, then for each of them and each number of colours there is a
    file that the solver accepts and whose models are the proper colourings. *)
Theorem C90_graphs u v dir fs M : M <= int_max -> (forall a, In a (u ++ v) -> a = SP \/ a = LF) -> NoDup (map fst dir) ->
  (forall g t, In (g ++ txt ".col", t) dir -> exists n k es, usable_graph M n k es t) ->
  exists o own fs', convert_folders (u ++ num M ++ v) dir fs = Some (o, own, fs') /\
    forall N g t n k es, 3 <= N <= M -> In (g ++ txt ".col", t) dir -> usable_graph M n k es t ->
      exists t' p, fs' N (g ++ txt "_N" ++ num N ++ txt ".dimacs") = Some t' /\ ready p t' /\ describes p n N (proper es).
Proof.
  intros HM Hm ND U. destruct (C90_folders u v dir fs M Hm) as (o & own & fs' & E & _ & _ & F & _). exists o, own, fs'. split; [exact E|].
  assert (R : forall N n k es t, 3 <= N <= M -> usable_graph M n k es t ->
    exists t' p, color_file N false t = (t', true) /\ ready p t' /\ describes p n N (proper es)).
  { intros N n k es t HN (A1 & A2 & A3 & A4 & A5 & A6 & A7). apply (C59_ready N false n k es t); auto; try lia; nia. }
  intros N g t n k es HN I0 G. destruct (R N n k es t HN G) as (t' & p & E1 & E2 & E3). exists t', p. split; [|auto].
  rewrite (F N HN). destruct (C90_script N false dir (fs N) ND) as (S1 & _).
  - right. intros g' t1 I1. destruct (U g' t1 I1) as (n' & k' & es' & G'). destruct (R N n' k' es' t1 HN G') as (t2 & p2 & E4 & _). rewrite E4. reflexivity.
  - rewrite (S1 g t I0), E1. reflexivity.
Qed.
Print Assumptions C90_graphs.

(** DONE does not mean that the graph files are converted: a file with an error before it is enough. *)
Theorem C90_done_refuted : exists m dir g t o own fs', convert_folders m dir (fun _ _ => None) = Some (o, own, fs') /\
  own = txt "N=3 DONE" ++ [LF] /\ In (g ++ txt ".col", t) dir /\ graph_file 2 1 [(1, 2)] t /\
  fs' 3 (g ++ txt "_N3.dimacs") = None.
Proof.
  exists (txt "3" ++ [LF]), [(txt "a.col", unlines (map txt ["p edge 2 1"; "n 1"]%string)); (txt "b.col", unlines (map txt ["p edge 2 1"; "e 1 2"]%string))], (txt "b"),
    (unlines (map txt ["p edge 2 1"; "e 1 2"]%string)).
  destruct (convert_folders _ _ _) as [((o & own) & fs')|] eqn:E; [|vm_compute in E; discriminate E].
  exists o, own, fs'. split; [reflexivity|]. vm_compute in E. injection E as <- <- <-. split; [reflexivity|]. split; [right; left; reflexivity|].
  split; [|vm_compute; reflexivity].
  exists (txt "edge"), (map txt ["p edge 2 1"; "e 1 2"]%string), (txt "p edge 2 1"), (map txt ["e 1 2"]%string).
  split; [split; [apply no_lf_ok; reflexivity|left; reflexivity]|]. split; [reflexivity|]. split; [eexists; reflexivity|]. split; [left; reflexivity|].
  split; [vm_compute; reflexivity|]. repeat constructor; try (eexists; reflexivity).
Qed.
Print Assumptions C90_done_refuted.

(** An unknown line in line 2 of the second of three graph files (and a file that is none). *)
Definition folder_case : list (text * text) :=
  [(txt "a.col", unlines (map txt ["p edge 2 1"; "e 1 2"]%string)); (txt "M.in", txt "3");
   (txt "b.c.col", unlines (map txt ["p edge 2 1"; "n 1 "]%string)); (txt "d.col", unlines (map txt ["p edge 1 0"]%string))].
Example C90_case : NoDup (map fst folder_case) /\
  filter (fun x => is_col (fst x)) folder_case = [nth 0 folder_case ([], [])] ++ nth 2 folder_case ([], []) :: [nth 3 folder_case ([], [])] /\
  snd (color_file 3 false (snd (nth 0 folder_case ([], [])))) = true /\ snd (color_file 3 false (snd (nth 2 folder_case ([], [])))) = false /\
  fst (coloring_script is_col 3 false folder_case (fun _ => None)) =
    unlines (map txt ["converting a.col"; "converting b.c.col"; "Unknown line type in b.c.col"; "Line number 1:"; """n 1"""]%string) /\
  snd (coloring_script is_col 3 false folder_case (fun _ => None)) (txt "d_N3.dimacs") = None /\
  snd (coloring_script is_col 3 true folder_case (fun _ => None)) (txt "d_N3.dimacs") = Some (unlines (map txt ["p cnf 1 0"; "d 1 3"]%string)) /\
  snd (coloring_script is_col 3 true folder_case (fun _ => None)) (txt "b.c_N3.dimacs") = Some [] /\
  convert_folders (txt "three") folder_case (fun _ _ => None) = None.
Proof.
  split; [repeat (constructor; [vm_compute; intuition discriminate|]); constructor|]. repeat split; vm_compute; reflexivity.
Qed.

(** The hypotheses of [C90_graphs] are met by a triangle and up to four colours. *)
Example C90_graphs_case : let t := unlines (map txt ["p edge 3 3"; "e 1 2"; "e 1 3"; "e 2 3"]%string) in
  usable_graph 4 3 3 [(1, 2); (1, 3); (2, 3)] t /\
  exists o fs', convert_folders (txt "4") [(txt "t.col", t)] (fun _ _ => None) = Some (o, unlines (map txt ["N=3 DONE"; "N=4 DONE"]%string), fs') /\
    fs' 4 (txt "t_N4.dimacs") = Some (fst (color_file 4 false t)).
Proof.
  split.
  - unfold usable_graph, int_max. split; [lia|]. split; [lia|]. split; [lia|]. split; [cbn; lia|]. split.
    + intros u v H. cbn in H. decompose [or] H; try contradiction; match goal with E : (_, _) = (_, _) |- _ => injection E as <- <- end; lia.
    + split.
      * exists (txt "edge"), (map txt ["p edge 3 3"; "e 1 2"; "e 1 3"; "e 2 3"]%string), (txt "p edge 3 3"), (map txt ["e 1 2"; "e 1 3"; "e 2 3"]%string).
        split; [split; [apply no_lf_ok; reflexivity|left; reflexivity]|]. split; [reflexivity|]. split; [eexists; reflexivity|]. split; [left; reflexivity|].
        split; [vm_compute; reflexivity|]. repeat constructor; try (eexists; reflexivity).
      * eapply lines_below_intro; [split; [apply (no_lf_ok (map txt ["p edge 3 3"; "e 1 2"; "e 1 3"; "e 2 3"]%string)); reflexivity|left; reflexivity]|].
        intros l H. cbn in H. decompose [or] H; subst; try contradiction; cbn; lia.
  - destruct (convert_folders _ _ _) as [((o & own) & fs')|] eqn:E; [|vm_compute in E; discriminate E].
    exists o, fs'. vm_compute in E. injection E as <- <- <-. split; [reflexivity|vm_compute; reflexivity].
Qed.
