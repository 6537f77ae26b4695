(** * The program of the second solver and domains with more than 64 values *)

From Coq Require Import Ascii String.
From Verif Require Import Spec Outcome State ModelBuild ModelSearch Base Observe Cases TextSpec ModelText ModelRead CliSpec ModelCli Text Read Cli
  ModelGen ModelMenu ModelMain MainSpec MainFacts ModelBit BitSpec BitBuild BitWide ModelBitMain BitMainSpec BitMainFacts.
#[local] Open Scope Z_scope.

Definition wide_count (p : problem) : nat := length (filter (fun d => max_domain <? d) (doms p)).

Lemma large_lines p : too_large (items_of p) = unlines (repeat (txt "Error: domain exceeds MAX_DOMAIN") (wide_count p)).
Proof.
  unfold too_large, items_of, wide_count. rewrite map_app, concat_app.
  assert (E : forall cs : list clause, List.concat (map (fun i => match i with
      IDom d => if max_domain <? d then say ["Error: domain exceeds MAX_DOMAIN"%string] else [] | ICls _ => [] end) (map ICls cs)) = []).
  { induction cs as [|c cs IH]; [reflexivity|]. exact IH. }
  rewrite E, app_nil_r. induction (doms p) as [|d ds IH]; [reflexivity|]. cbn [map List.concat filter].
  destruct (max_domain <? d); [|exact IH]. cbn [length repeat]. rewrite unlines_cons, IH. reflexivity.
Qed.

Lemma bmain_wide fuel os w f t p :
  Forall bit_option os -> latest sel_file os None = Some f -> files_of w f = Some t -> 0 <= latest sel_size os 3 ->
  wf p -> fits_int p -> accepted p t -> lines_below 3000 t ->
  (exists c l, In c (clauses p) /\ In l c /\ wide_var p (lvar l)) ->
  bmain fuel (txt "-solvenc" :: args_of os) w = Undef BadBit.
Proof.
  intros H Ef Et Hs W F D L X. unfold bmain. rewrite bit_dispatch by auto. cbn [bind].
  destruct (bit_fields os bdefault) as (E1 & _ & _ & E4 & _). cbn in E1, E4. unfold brun. rewrite E1, Ef, Et, E4.
  destruct (Z.ltb_spec (latest sel_size os 3) 0); [lia|]. cbn [andb]. rewrite (read_accepted p t) by auto. cbn [bind].
  destruct (build_wide p W) as [(s & _ & N)|(E & _)]; [|rewrite E; auto].
  destruct X as (c & l & Hc & Hl & Wl). exfalso. apply (N c Hc). exists l. auto.
Qed.

Lemma bmain_messages fuel os w f t p r :
  Forall bit_option os -> latest sel_file os None = Some f -> files_of w f = Some t -> 0 <= latest sel_size os 3 ->
  wf p -> fits_int p -> accepted p t -> lines_below 3000 t ->
  bmain fuel (txt "-solvenc" :: args_of os) w = Ok r ->
  (forall c l, In c (clauses p) -> In l c -> ~ wide_var p (lvar l)) /\
  exists rest, screen r = title ++ unlines (repeat (txt "Error: domain exceeds MAX_DOMAIN") (wide_count p)) ++ f ++ rest.
Proof.
  intros H Ef Et Hs W F D L X. unfold bmain in X. rewrite bit_dispatch in X by auto. cbn [bind] in X.
  destruct (bit_fields os bdefault) as (E1 & _ & _ & E4 & _). cbn in E1, E4. unfold brun in X. rewrite E1, Ef, Et, E4 in X.
  destruct (Z.ltb_spec (latest sel_size os 3) 0); [lia|]. cbn [andb] in X. rewrite (read_accepted p t) in X by auto. cbn [bind] in X.
  destruct (build_wide p W) as [(s & E & N)|(E & _)]; [|rewrite E in X; discriminate].
  split; [intros c l Hc Hl Wl; apply (N c Hc); exists l; auto|].
  rewrite E in X. cbn [bind] in X. apply bind_ok in X. destruct X as (q & _ & X). apply (f_equal (fun o => match o with Ok r => screen r | _ => [] end)) in X.
  cbn [screen] in X. rewrite <- X. rewrite banner_title, large_lines. eexists. reflexivity.
Qed.
