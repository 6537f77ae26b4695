(** * Reading problem files *)

From Coq Require Import Ascii String.
From Verif Require Import Spec Outcome State ModelCounter ModelHeur ModelWatch ModelLearn ModelBuild TextSpec ModelText ModelRead Text.
#[local] Open Scope char_scope.
#[local] Open Scope Z_scope.

Definition int_ok (z : Z) : Prop := 0 <= z <= int_max.

Lemma int_ok_in z : int_ok z -> in_int z = true.
Proof. unfold int_ok, in_int, int_max. lia. Qed.

Lemma sscanf_var f z r g : int_ok z -> stops r ->
  sscanf (DVar :: f) (num z ++ r) g = sscanf f r (mkRegs (Some z) (g_val g) (g_ch g)).
Proof. intros H S. cbn [sscanf]. rewrite skip_num, scan_num, int_ok_in by auto. reflexivity. Qed.

Lemma sscanf_val f z r g : int_ok z -> stops r ->
  sscanf (DVal :: f) (num z ++ r) g = sscanf f r (mkRegs (g_var g) (Some z) (g_ch g)).
Proof. intros H S. cbn [sscanf]. rewrite skip_num, scan_num, int_ok_in by auto. reflexivity. Qed.

(** ** A literal *)

Lemma scan_eq v d g : int_ok v -> int_ok d ->
  sscanf fmt_eq (num v ++ txt "=" ++ num d) g = Ok (mkRegs (Some v) (Some d) (Some "=")).
Proof.
  intros Hv Hd. unfold fmt_eq. rewrite sscanf_var by (auto; reflexivity).
  change (txt "=" ++ num d)%list with ("=" :: num d). cbn [sscanf skip_space].
  change (isspace "=") with false. cbn iota. rewrite <- (app_nil_r (num d)), skip_num.
  rewrite skip_num, scan_num, int_ok_in by (auto; exact I). reflexivity.
Qed.

Lemma scan_ne v d g : int_ok v ->
  sscanf fmt_eq (num v ++ txt "!=" ++ num d) g = Ok (mkRegs (Some v) (g_val g) (Some "!")).
Proof. intro Hv. unfold fmt_eq. rewrite sscanf_var by (auto; reflexivity). reflexivity. Qed.

Lemma rescan_ne v d g : int_ok v -> int_ok d ->
  sscanf fmt_ne (num v ++ txt "!=" ++ num d) g = Ok (mkRegs (Some v) (Some d) (Some "!")).
Proof.
  intros Hv Hd. unfold fmt_ne. rewrite sscanf_var by (auto; reflexivity).
  change (txt "!=" ++ num d)%list with ("!" :: "=" :: num d). cbn [sscanf skip_space].
  change (isspace "!") with false. cbn iota. cbn [skip_space]. change (isspace "=") with false. cbn iota.
  rewrite <- (app_nil_r (num d)), skip_num. rewrite skip_num, scan_num, int_ok_in by (auto; exact I). reflexivity.
Qed.

Lemma scan_zero gv gd ch : sscanf fmt_eq (txt "0") (mkRegs gv gd ch) = Ok (mkRegs (Some 0) gd ch).
Proof. reflexivity. Qed.

Lemma rescan_zero gv gd ch : sscanf fmt_ne (txt "0") (mkRegs gv gd ch) = Ok (mkRegs (Some 0) gd ch).
Proof. reflexivity. Qed.

Lemma read_lit g l : int_ok (lvar l) -> lvar l <> 0 -> int_ok (lval l) ->
  exists g', read_word g (lit_text l) = Ok (g', Some l) /\ g_ch g' <> None.
Proof.
  intros Hv Hn Hd. destruct l as [v d e]. cbn [lvar lval] in *. unfold lit_text. cbn [lvar lval leq].
  unfold read_word. destruct e.
  - rewrite scan_eq by auto. cbn. rewrite (proj2 (Z.eqb_neq v 0) Hn). eexists. split; [reflexivity|discriminate].
  - rewrite scan_ne by auto. cbn [bind get g_ch]. change (Ascii.eqb "!" "!") with true. cbn iota.
    rewrite rescan_ne by auto. cbn. rewrite (proj2 (Z.eqb_neq v 0) Hn). eexists. split; [reflexivity|discriminate].
Qed.

Lemma read_zero g : g_ch g <> None -> exists g', read_word g (txt "0") = Ok (g', None) /\ g_ch g' <> None.
Proof.
  intro H. destruct g as [gv gd [ch|]]; [|cbn in H; congruence]. unfold read_word.
  rewrite scan_zero. cbn [bind get g_ch].
  destruct (Ascii.eqb ch "!"); rewrite ?rescan_zero; cbn; eexists; (split; [reflexivity|discriminate]).
Qed.

Lemma read_clause : forall c g, (c = [] -> g_ch g <> None) ->
  (forall l, In l c -> int_ok (lvar l) /\ lvar l <> 0 /\ int_ok (lval l)) ->
  exists g', read_words g (map lit_text c ++ [txt "0"]) = Ok (g', c) /\ g_ch g' <> None.
Proof.
  induction c as [|l c IH]; intros g Hg H.
  - destruct (read_zero g (Hg eq_refl)) as (g' & E & N). exists g'. split; auto.
    change (map lit_text [] ++ [txt "0"])%list with [txt "0"]. cbn [read_words]. rewrite E. reflexivity.
  - destruct (H l (or_introl eq_refl)) as (H1 & H2 & H3). destruct (read_lit g l H1 H2 H3) as (g1 & E1 & N1).
    destruct (IH g1 (fun _ => N1) (fun x Hx => H x (or_intror Hx))) as (g2 & E2 & N2).
    exists g2. split; auto. cbn [map app read_words]. rewrite E1. cbn [bind]. rewrite E2. reflexivity.
Qed.

Lemma read_open : forall c g,
  (forall l, In l c -> int_ok (lvar l) /\ lvar l <> 0 /\ int_ok (lval l)) ->
  exists g', read_words g (map lit_text c) = Ok (g', c).
Proof.
  induction c as [|l c IH]; intros g H; [exists g; reflexivity|].
  destruct (H l (or_introl eq_refl)) as (H1 & H2 & H3). destruct (read_lit g l H1 H2 H3) as (g1 & E1 & N1).
  destruct (IH g1 (fun x Hx => H x (or_intror Hx))) as (g2 & E2).
  exists g2. cbn [map read_words]. rewrite E1. cbn [bind]. rewrite E2. reflexivity.
Qed.

(** ** Lines *)

Lemma digit_not a : is_digit a = true -> a <> NUL /\ a <> "c" /\ a <> "p" /\ a <> "d" /\ a <> "p".
Proof. intro H. repeat split; intros ->; discriminate. Qed.

Definition plain (a : ascii) : Prop := is_digit a = true \/ a = "-" \/ a = "!" \/ a = "=".

Lemma lit_plain l a : In a (lit_text l) -> plain a.
Proof.
  unfold lit_text, plain. intro H. apply in_app_or in H. destruct H as [H|H].
  - apply num_not_nul in H. tauto.
  - apply in_app_or in H. destruct H as [H|H].
    + destruct (leq l); simpl in H; intuition auto.
    + apply num_not_nul in H. tauto.
Qed.

Lemma open_chars c l : open_line c l -> forall a, In a l -> blank a = true \/ plain a.
Proof.
  intros [W|W] a Ha; destruct (words_chars _ _ W a Ha) as [B|(w & Hw & Hin)]; auto; right.
  { apply in_map_iff in Hw. destruct Hw as (x & <- & _). apply (lit_plain x); auto. }
  apply in_app_or in Hw. destruct Hw as [Hw|[<-|[]]].
  - apply in_map_iff in Hw. destruct Hw as (x & <- & _). apply (lit_plain x); auto.
  - destruct Hin as [<-|[]]. left. reflexivity.
Qed.

Lemma clause_chars c l : clause_line c l -> forall a, In a l -> blank a = true \/ plain a.
Proof. intro W. apply (open_chars c). right. auto. Qed.

Lemma clause_char_ok a : blank a = true \/ plain a -> a <> NUL /\ a <> "c" /\ a <> "p" /\ a <> "d".
Proof.
  intros H. repeat split; intros ->; (destruct H as [H|[H|[H|[H|H]]]]; discriminate).
Qed.

(** The choice made on the first character. *)
Lemma read_line_other g a l : ~ In NUL (a :: l) -> a <> "c" -> a <> "p" -> a <> "d" ->
  read_line g (a :: l) = let* x := read_words g (words (a :: l)) in let (g, ls) := x in Ok (g, Some (ICls ls)).
Proof.
  intros N H1 H2 H3. unfold read_line. rewrite cstr_id by auto. rewrite line_words_eq.
  destruct a as [[] [] [] [] [] [] [] []]; try reflexivity; congruence.
Qed.

Lemma read_open_line g c l : open_line c l -> c <> [] ->
  (forall x, In x c -> int_ok (lvar x) /\ lvar x <> 0 /\ int_ok (lval x)) ->
  exists g', read_line g l = Ok (g', Some (ICls c)).
Proof.
  intros W Hg H. pose proof (open_chars c l W) as CC. destruct l as [|a l].
  - exfalso. destruct W as [W|W]; [|unfold clause_line in W]; simpl in W; destruct c; try discriminate. congruence.
  - destruct (clause_char_ok a (CC a (or_introl eq_refl))) as (_ & H1 & H2 & H3).
    rewrite read_line_other; auto.
    + destruct W as [W|W]; rewrite W.
      * destruct (read_open c g H) as (g' & E). rewrite E. simpl. eauto.
      * destruct (read_clause c g ltac:(congruence) H) as (g' & E & N). rewrite E. simpl. eauto.
    + intro Hin. apply CC in Hin. apply clause_char_ok in Hin. destruct Hin as (Hn & _). congruence.
Qed.

Lemma starts_word a l w ws : starts a l -> words l = w :: ws -> blank a = false -> w = [a] ->
  exists r, l = a :: r /\ gap r /\ words r = ws.
Proof.
  intros (l' & ->) W B ->. apply words_cons in W. destruct W as (b & r & E & Hb & S & G & W).
  destruct b as [|x b].
  - simpl in E. injection E as ->. eauto.
  - exfalso. injection E as <- _. rewrite Hb in B by (left; auto). discriminate.
Qed.

Lemma next_word r w ws : words r = w :: ws -> exists r', skip_space r = skip_space (w ++ r') /\ gap r' /\ words r' = ws.
Proof.
  intro W. apply words_cons in W. destruct W as (b & r' & E & Hb & S & G & W). exists r'.
  split; auto. rewrite E. rewrite skip_blanks; auto.
Qed.

Lemma line_no_nul l ws : words l = ws -> (forall w, In w ws -> ~ In NUL w) -> ~ In NUL l.
Proof.
  intros W H Hin. destruct (words_chars _ _ W _ Hin) as [B|(w & Hw & Hx)]; [discriminate|]. exact (H w Hw Hx).
Qed.

Lemma num_no_nul z : ~ In NUL (num z).
Proof. intro H. apply num_not_nul in H. destruct H as [H|H]; discriminate. Qed.

(** Scanning two numbers separated by blanks. *)
Lemma scan_two r a b g : words r = [num a; num b] -> int_ok a -> int_ok b ->
  sscanf [DSpace; DVar; DSpace; DVal] r g = Ok (mkRegs (Some a) (Some b) (g_ch g)).
Proof.
  intros W Ha Hb. destruct (next_word r _ _ W) as (r1 & E1 & G1 & W1).
  cbn [sscanf]. rewrite E1, skip_num, skip_num, scan_num, int_ok_in by (auto using gap_stops).
  destruct (next_word r1 _ _ W1) as (r2 & E2 & G2 & W2).
  rewrite E2, skip_num, skip_num, scan_num, int_ok_in by (auto using gap_stops). reflexivity.
Qed.

Lemma scan_domain_line g v size l : domain_line v size l -> int_ok v -> int_ok size ->
  ~ In NUL l /\ (exists r, l = "d" :: r) /\ sscanf fmt_d l g = Ok (mkRegs (Some v) (Some size) (g_ch g)).
Proof.
  intros (S & W) Hv Hs. destruct (starts_word "d" l _ _ S W eq_refl eq_refl) as (r & -> & G & Wr).
  split; [|split; [eauto|]].
  - apply (line_no_nul _ _ W). intros w [<-|[<-|[<-|[]]]]; try apply num_no_nul. intros [H|[]]; discriminate.
  - unfold fmt_d. change (sscanf (DLit "d" :: ?f) ("d" :: r) g) with (sscanf f r g).
    rewrite (scan_two r v size) by auto. reflexivity.
Qed.

Lemma read_domain_line g v size l : domain_line v size l -> int_ok v -> int_ok size ->
  read_line g l = Ok (mkRegs (Some v) (Some size) (g_ch g), Some (IDom size)).
Proof.
  intros H Hv Hs. destruct (scan_domain_line g v size l H Hv Hs) as (N & (r & ->) & E).
  unfold read_line. rewrite cstr_id by auto. rewrite E. reflexivity.
Qed.

Lemma scan_header_line g n m l : starts "p" l -> words l = [txt "p"; txt "cnf"; num n; num m] -> int_ok n -> int_ok m ->
  ~ In NUL l /\ (exists r, l = "p" :: r) /\ sscanf fmt_p l g = Ok (mkRegs (Some n) (Some m) (g_ch g)).
Proof.
  intros S W Hn Hm. destruct (starts_word "p" l _ _ S W eq_refl eq_refl) as (r & -> & G & Wr).
  split; [|split; [eauto|]].
  - apply (line_no_nul _ _ W). intros w [<-|[<-|[<-|[<-|[]]]]]; try apply num_no_nul; simpl; intuition discriminate.
  - unfold fmt_p. change (sscanf (DLit "p" :: ?f) ("p" :: r) g) with (sscanf f r g).
    destruct (next_word r _ _ Wr) as (r1 & E1 & G1 & W1).
    change (sscanf (DSpace :: ?f) r g) with (sscanf f (skip_space r) g). rewrite E1.
    change (skip_space (txt "cnf" ++ r1)) with ("c" :: "n" :: "f" :: r1).
    change (sscanf (DLit "c" :: DLit "n" :: DLit "f" :: ?f) ("c" :: "n" :: "f" :: r1) g) with (sscanf f r1 g).
    rewrite (scan_two r1 n m g W1 Hn Hm). reflexivity.
Qed.

Lemma scan_other_header g n m l : starts "p" l -> words l = [txt "p"; txt "mvcnf"; num n; num m] ->
  ~ In NUL l /\ (exists r, l = "p" :: r) /\ sscanf fmt_p l g = Ok g.
Proof.
  intros S W. destruct (starts_word "p" l _ _ S W eq_refl eq_refl) as (r & -> & G & Wr).
  split; [|split; [eauto|]].
  - apply (line_no_nul _ _ W). intros w [<-|[<-|[<-|[<-|[]]]]]; try apply num_no_nul; simpl; intuition discriminate.
  - unfold fmt_p. change (sscanf (DLit "p" :: ?f) ("p" :: r) g) with (sscanf f r g).
    destruct (next_word r _ _ Wr) as (r1 & E1 & G1 & W1).
    change (sscanf (DSpace :: ?f) r g) with (sscanf f (skip_space r) g). rewrite E1. reflexivity.
Qed.

Lemma read_header_line g n m l f : starts "p" l -> (f = txt "cnf" \/ f = txt "mvcnf") ->
  words l = [txt "p"; f; num n; num m] -> int_ok n -> int_ok m ->
  exists g', read_line g l = Ok (g', None).
Proof.
  intros S F W Hn Hm. unfold read_line. destruct F as [->| ->].
  - destruct (scan_header_line g n m l S W Hn Hm) as (N & (r & ->) & E). rewrite cstr_id by auto. rewrite E. simpl. eauto.
  - destruct (scan_other_header g n m l S W) as (N & (r & ->) & E). rewrite cstr_id by auto. rewrite E. simpl. eauto.
Qed.

(** ** The file *)

(** Comments and problem lines make no difference, except to the variables of sscanf. *)
Definition reads (l : text) (i : item) : Prop := forall g, exists g', read_line g l = Ok (g', Some i).

Lemma read_lines_skip : forall ls, (forall l, In l ls -> is_problem l = true -> problem_line l) ->
  forall is, Forall2 reads (filter (fun l => negb (is_comment l || is_problem l)) ls) is -> forall g, read_lines g ls = Ok is.
Proof.
  induction ls as [|l ls IH]; intros HP is F g; [inversion F; reflexivity|].
  assert (HP' : forall l, In l ls -> is_problem l = true -> problem_line l) by (intros; apply HP; [right|]; auto).
  cbn [filter] in F. destruct (is_comment l) eqn:Ec; [|destruct (is_problem l) eqn:Ep].
  - cbn [orb negb] in F. destruct l as [|a l]; [discriminate|]. apply Ascii.eqb_eq in Ec. subst a.
    cbn [read_lines]. unfold read_line. cbn [cstr]. change (Ascii.eqb "c" NUL) with false. cbn. rewrite (IH HP' is F). reflexivity.
  - cbn [orb negb] in F. destruct (HP l (or_introl eq_refl) Ep) as (f & n & m & Hf & Hn & Hm & W).
    destruct l as [|a l]; [discriminate|]. apply Ascii.eqb_eq in Ep. subst a.
    destruct (read_header_line g n m ("p" :: l) f) as (g' & E); auto; [eexists; reflexivity|].
    cbn [read_lines]. rewrite E. cbn [bind]. rewrite (IH HP' is F). reflexivity.
  - cbn [orb negb] in F. inversion F as [|? i ? is' H HH]; subst. destruct (H g) as (g' & E).
    cbn [read_lines]. rewrite E. cbn [bind]. rewrite (IH HP' is' HH). reflexivity.
Qed.

Lemma domain_lines_reads : forall sizes v ds, domain_lines v sizes ds -> 0 <= v ->
  v + Z.of_nat (length sizes) - 1 <= int_max -> (forall d, In d sizes -> int_ok d) -> Forall2 reads ds (map IDom sizes).
Proof.
  induction sizes as [|d sizes IH]; intros v [|l ds] H Hv Hn Hs; try destruct H; constructor.
  - intro g. rewrite (read_domain_line g v d l); eauto; [|apply Hs; left; auto]. simpl length in Hn. unfold int_ok. lia.
  - apply (IH (v + 1)); auto; [lia|simpl length in Hn; lia|]. intros; apply Hs; right; auto.
Qed.

Lemma clause_lines_reads p : wf p -> nvars p <= int_max -> (forall d, In d (doms p) -> d <= int_max) ->
  forall C cs, Forall2 open_line C cs -> incl C (clauses p) -> Forall2 reads cs (map ICls C).
Proof.
  intros (W1 & W2) F1 F2 C cs H. induction H as [|c l C cs H HH IH]; intro I; constructor; [|apply IH; intros y Hy; apply I; right; auto].
  destruct (W2 c) as (Hne & Hw); [apply I; left; auto|]. intro g.
  apply read_open_line; auto.
  intros x Hx. destruct (Hw x Hx) as (A & B). unfold int_ok. split; [lia|]. split; [lia|].
  assert (D : domsize p (lvar x) <= int_max); [|lia].
  unfold domsize. destruct (Z.leb_spec 1 (lvar x)); [|unfold int_max; lia]. apply F2. apply nth_In. unfold nvars in A. lia.
Qed.

Theorem read_accepted p t : wf p -> fits_int p -> accepted p t -> lines_below 3000 t ->
  read_file t = Ok (items_of p).
Proof.
  intros W (F1 & F2 & F3) (ls & ds & cs & HL & HP & FL & HD & HC) LB.
  unfold read_file. rewrite (getlines_has t ls HL (LB ls HL)). apply read_lines_skip; auto. rewrite FL.
  pose proof W as (W1 & _). apply Forall2_app.
  - apply (domain_lines_reads _ 1); auto; [lia|unfold nvars in F1; lia|].
    intros d Hd. pose proof (W1 d Hd). pose proof (F3 d Hd). unfold int_ok. lia.
  - apply (clause_lines_reads p); auto. apply incl_refl.
Qed.

Lemma domain_lines_kind : forall sizes v ds, domain_lines v sizes ds -> forall l, In l ds -> is_problem l = false.
Proof.
  induction sizes as [|d sizes IH]; intros v [|l ds] H x Hx; try (destruct Hx; fail); try (destruct H; fail).
  destruct H as (((r & ->) & _) & H). destruct Hx as [<-|Hx]; auto. apply (IH (v + 1) ds); auto.
Qed.

Lemma open_line_kind c l : open_line c l -> is_problem l = false.
Proof.
  intro H. destruct l as [|a l]; auto. cbn. destruct (Ascii.eqb_spec a "p") as [->|]; auto.
  destruct (clause_char_ok "p" (open_chars c _ H "p" (or_introl eq_refl))) as (_ & _ & N & _). congruence.
Qed.

Lemma readable_accepted p t : fits_int p -> readable p t -> accepted p t.
Proof.
  intros (F1 & F2 & _) (f & ls & hd & ds & cs & Hf & HL & FL & (Hs & Hh) & HD & HC).
  assert (K : forall l, In l (ds ++ cs) -> is_problem l = false).
  { intros l Hl. apply in_app_or in Hl. destruct Hl as [Hl|Hl]; [eapply domain_lines_kind; eauto|].
    clear -HC Hl. induction HC as [|c x C cs H HH IH]; [destruct Hl|]. destruct Hl as [<-|Hl]; auto. eapply open_line_kind; eauto. }
  assert (E : forall g, filter (fun l => negb (is_comment l || g l)) ls = filter (fun l => negb (g l)) (filter (fun l => negb (is_comment l)) ls)).
  { intro g. clear. induction ls as [|l ls IH]; auto. cbn [filter]. destruct (is_comment l); cbn [orb negb]; auto.
    cbn [filter]. destruct (g l); cbn [negb]; rewrite IH; auto. }
  exists ls, ds, cs. split; [auto|]. split; [|split; [|split; auto]].
  - intros l Hl Hp. destruct (is_comment l) eqn:Ec; [destruct l as [|a l]; [discriminate|]; apply Ascii.eqb_eq in Ec, Hp; congruence|].
    assert (Hin : In l (hd :: ds ++ cs)) by (rewrite <- FL; apply filter_In; rewrite Ec; auto).
    destruct Hin as [<-|Hin]; [|rewrite K in Hp by auto; discriminate].
    exists f, (nvars p), (Z.of_nat (length (clauses p))). unfold nvars in *. repeat split; auto; lia.
  - rewrite E, FL. cbn [filter]. destruct Hs as (r & ->). change (is_problem ("p" :: r)) with true. cbn [negb].
    clear -K. induction (ds ++ cs)%list as [|l k IH]; auto. cbn [filter]. rewrite K by (left; auto). cbn [negb]. f_equal. apply IH. intros; apply K; right; auto.
Qed.

Theorem read_readable p t : wf p -> fits_int p -> readable p t -> lines_below 3000 t ->
  read_file t = Ok (items_of p).
Proof. intros W F D. apply read_accepted; auto. apply readable_accepted; auto. Qed.

Lemma documented_readable p t : documented p t -> readable p t.
Proof.
  assert (G : forall C cs, Forall2 clause_line C cs -> Forall2 open_line C cs).
  { intros C cs H. induction H; constructor; auto. right. auto. }
  intros [(ls & hd & ds & cs & HL & FL & Hh & HD & HC)|(ls & hd & ds & cs & HL & FL & Hh & HD & HC)];
    eexists _, ls, hd, ds, cs; (split; [|split; [exact HL|split; [exact FL|split; [exact Hh|split; [exact HD|apply G; exact HC]]]]]); auto.
Qed.

Theorem read_documented p t : wf p -> fits_int p -> documented p t -> lines_below 3000 t ->
  read_file t = Ok (items_of p).
Proof. intros W F D. apply read_readable; auto. apply documented_readable. auto. Qed.

(** ** Every line counts *)

Definition clause_like (l : text) : bool :=
  match cstr l with a :: _ => negb (Ascii.eqb a "c" || Ascii.eqb a "p" || Ascii.eqb a "d") | [] => true end.

Lemma read_line_kind g l g' i : read_line g l = Ok (g', i) ->
  match i with Some (ICls _) => clause_like l = true | _ => clause_like l = false end.
Proof.
  unfold read_line, clause_like. intro E. set (b := cstr l) in *. clearbody b.
  assert (K : forall b, (let* x := read_words g (line_words [] b) in let (g, ls) := x in Ok (g, Some (ICls ls))) = Ok (g', i) ->
            exists ls, i = Some (ICls ls)).
  { intros b0 E0. destruct (read_words g (line_words [] b0)) as [(g0, ls)| |]; try discriminate. injection E0 as _ <-. eauto. }
  destruct b as [|a b]; [apply K in E; destruct E as (x & ->); auto|].
  destruct (Ascii.eqb_spec a "c") as [->|Nc]; [injection E as _ <-; auto|].
  destruct (Ascii.eqb_spec a "p") as [->|Np].
  { destruct (sscanf _ _ _); try discriminate. injection E as _ <-. auto. }
  destruct (Ascii.eqb_spec a "d") as [->|Nd].
  { destruct (sscanf _ _ _) as [g1| |]; try discriminate. cbn [bind] in E.
    destruct (get (g_var g1)); try discriminate. cbn [bind] in E.
    destruct (get (g_val g1)); try discriminate. injection E as _ <-. auto. }
  assert (E' : (let* x := read_words g (line_words [] (a :: b)) in let (g, ls) := x in Ok (g, Some (ICls ls))) = Ok (g', i)).
  { rewrite <- E. clear -Nc Np Nd. destruct a as [[] [] [] [] [] [] [] []]; try reflexivity; congruence. }
  apply K in E'. destruct E' as (x & ->). auto.
Qed.

Definition is_cls (i : item) : bool := match i with ICls _ => true | _ => false end.

Lemma read_lines_count : forall ls g is, read_lines g ls = Ok is ->
  length (filter is_cls is) = length (filter clause_like ls).
Proof.
  induction ls as [|l ls IH]; intros g is E; cbn [read_lines] in E; [injection E as <-; auto|].
  destruct (read_line g l) as [(g', i)| |] eqn:El; try discriminate. cbn [bind] in E.
  destruct (read_lines g' ls) as [is'| |] eqn:Er; try discriminate. injection E as <-.
  pose proof (read_line_kind g l g' i El) as K. apply IH in Er. cbn [filter].
  destruct i as [[d|c]|]; rewrite K; cbn [filter is_cls length]; auto.
Qed.

Lemma clause_like_row l : clause_like l = clause_row l.
Proof.
  unfold clause_like, clause_row. destruct l as [|a l]; auto. simpl. destruct (Ascii.eqb_spec a NUL) as [->|N]; auto.
Qed.

(** ** The clauses of the theory *)

Lemma bump_others_cl s v d : cl (bump_others s v d) = cl s.
Proof.
  unfold bump_others. generalize (zrange 0 (DOM (tr s) v)). intro zs. revert s.
  induction zs as [|j zs IH]; intro s; auto. simpl. rewrite IH. destruct (j =? d); auto.
Qed.

Lemma add_lit_cl c n s l s' : add_lit c n s l = Ok s' -> cl s' = cl s.
Proof.
  unfold add_lit. intro E.
  match type of E with bind ?x _ = _ => destruct x as [s1| |] eqn:E1; try discriminate end. cbn [bind] in E.
  assert (C1 : cl s1 = cl s).
  { assert (K : forall x, (do* chk (tr s) l in Ok x) = Ok s1 -> x = s1).
    { intros x. destruct (chk (tr s) l); try discriminate. cbn [bind]. intro H. injection H as ->. auto. }
    destruct (heur c); try (injection E1 as <-; reflexivity); try (apply K in E1; rewrite <- E1; reflexivity).
    destruct (leq l); [apply K in E1; rewrite <- E1; reflexivity|].
    destruct (_ && _); try discriminate. injection E1 as <-. apply bump_others_cl. }
  destruct (watch c).
  - injection E as <-. auto.
  - destruct (chk (tr s1) l); try discriminate. cbn [bind] in E. injection E as <-. auto.
Qed.

Lemma add_lits_cl c n : forall ls s s', foldM (add_lit c n) ls s = Ok s' -> cl s' = cl s.
Proof.
  induction ls as [|l ls IH]; intros s s' E; cbn [foldM] in E; [injection E as <-; auto|].
  destruct (add_lit c n s l) as [s1| |] eqn:E1; try discriminate. cbn [bind] in E.
  rewrite (IH _ _ E). eapply add_lit_cl; eauto.
Qed.

Lemma add_record_cl s l n s' : add_record s l n = Ok s' -> cl s' = cl s.
Proof. unfold add_record. destruct (chk (tr s) l); try discriminate. intro E. injection E as <-. auto. Qed.

Lemma add_clause_cl c s ls s' : add_clause c s ls = Ok s' -> cl s' = cl s ++ [ls].
Proof.
  unfold add_clause. intro E. destruct (foldM _ ls s) as [s1| |] eqn:E1; try discriminate. cbn [bind] in E.
  apply add_lits_cl in E1.
  assert (G : forall x, cl (if Nat.eqb (length ls) 1 then set_ulist x (ulist x ++ [length (cl s)]) else x) = cl x).
  { intro x. destruct (Nat.eqb (length ls) 1); auto. }
  match type of E with context [if Nat.eqb (length ls) 1 then set_ulist ?x _ else _] => pose proof (G x) as K; set (y := if Nat.eqb (length ls) 1 then _ else x) in * end.
  clearbody y. simpl in K. rewrite E1 in K.
  destruct (watch c).
  - destruct ls as [|a [|b ls]]; try discriminate.
    + destruct (add_record _ a _) as [s2| |] eqn:E2; try discriminate. cbn [bind] in E. injection E as <-.
      apply add_record_cl in E2. rewrite E2. exact K.
    + destruct (add_record _ a _) as [s2| |] eqn:E2; try discriminate. cbn [bind] in E. apply add_record_cl in E.
      apply add_record_cl in E2. rewrite E. simpl. rewrite E2. exact K.
  - injection E as <-. exact K.
Qed.

Lemma build_count c : forall is s s', foldM (add_item c) is s = Ok s' ->
  length (cl s') = (length (cl s) + length (filter is_cls is))%nat.
Proof.
  induction is as [|i is IH]; intros s s' E; cbn [foldM] in E; [injection E as <-; simpl; lia|].
  destruct (add_item c s i) as [s1| |] eqn:E1; try discriminate. cbn [bind] in E. rewrite (IH _ _ E).
  destruct i as [d|ls]; cbn [add_item] in E1; cbn [filter is_cls].
  - unfold add_domain in E1. destruct (d <? 0); try discriminate. injection E1 as <-. simpl. auto.
  - apply add_clause_cl in E1. rewrite E1, app_length. simpl. lia.
Qed.

Theorem every_row c t ls s : has_lines t ls -> (forall l, In l ls -> Z.of_nat (length l) < 3000) ->
  build_file c t = Ok s -> length (cl s) = length (filter clause_row ls).
Proof.
  intros HL S E. unfold build_file, read_file in E. rewrite (getlines_has t ls HL S) in E.
  destruct (read_lines no_regs ls) as [is| |] eqn:E1; try discriminate. cbn [bind] in E.
  apply build_count in E. apply read_lines_count in E1. rewrite E, E1. simpl. f_equal.
  apply filter_ext. apply clause_like_row.
Qed.

(** ** The layout *)

Lemma words_join : forall ws, (forall w, In w ws -> solid w) -> words (join ws) = ws.
Proof.
  assert (P : forall u w t, (forall a, In a u -> blank a = false) -> words_from w (u ++ t) = words_from (w ++ u) t).
  { induction u as [|a u IH]; intros w t H; simpl; [rewrite app_nil_r; auto|]. rewrite (H a) by (left; auto).
    rewrite IH by (intros; apply H; right; auto). rewrite <- app_assoc. reflexivity. }
  assert (Q : forall w ws, w <> [] -> flush w ws = w :: ws) by (intros [|a w] ws H; [congruence|auto]).
  induction ws as [|w ws IH]; intro H; [reflexivity|].
  destruct (H w (or_introl eq_refl)) as (Ne & B). destruct ws as [|w2 ws].
  - cbn [join]. unfold words. rewrite <- (app_nil_r w) at 1. rewrite P by auto. simpl. apply Q; auto.
  - change (join (w :: w2 :: ws)) with (w ++ SP :: join (w2 :: ws))%list. unfold words. rewrite P by auto.
    cbn [words_from app]. change (blank SP) with true. cbn iota. rewrite Q by auto. f_equal.
    apply IH. intros; apply H; right; auto.
Qed.

Lemma plain_solid a : plain a -> blank a = false.
Proof. intros [H|[->|[->| ->]]]; try reflexivity. destruct a as [[] [] [] [] [] [] [] []]; try reflexivity; discriminate. Qed.

Lemma num_solid z : solid (num z).
Proof.
  split.
  - destruct (Z_lt_le_dec z 0) as [L|L].
    + destruct z; try lia. rewrite num_neg. discriminate.
    + destruct (num_digits z L) as (a & r & -> & _). discriminate.
  - intros a H. apply num_not_nul in H. apply plain_solid. unfold plain. tauto.
Qed.

Lemma lit_solid l : solid (lit_text l).
Proof.
  split; [|intros a H; apply plain_solid; apply (lit_plain l); auto]. unfold lit_text.
  destruct (num_solid (lvar l)) as (N & _). destruct (num (lvar l)); [congruence|discriminate].
Qed.

Lemma txt_solid w : forallb (fun a => negb (blank a)) w = true -> w <> [] -> solid w.
Proof.
  intros H N. split; auto. intros a Ha. rewrite forallb_forall in H. apply H in Ha. destruct (blank a); auto; discriminate.
Qed.

Lemma join_no_lf ws : (forall w, In w ws -> ~ In LF w) -> ~ In LF (join ws).
Proof.
  induction ws as [|w ws IH]; intros H Hin; [destruct Hin|]. destruct ws as [|w2 ws].
  - apply (H w); auto. left; auto.
  - change (join (w :: w2 :: ws)) with (w ++ SP :: join (w2 :: ws))%list in Hin.
    apply in_app_or in Hin. destruct Hin as [Hin|[Hin|Hin]]; [apply (H w); auto; left; auto|discriminate|].
    apply IH; auto. intros; apply H; right; auto.
Qed.

Lemma num_no_lf z : ~ In LF (num z).
Proof. intro H. apply num_not_nul in H. destruct H as [H|H]; discriminate. Qed.

Lemma lit_no_lf l : ~ In LF (lit_text l).
Proof. intro H. apply lit_plain in H. destruct H as [H|[H|[H|H]]]; discriminate. Qed.

Lemma in_domain_rows : forall sizes v l, In l (domain_rows v sizes) -> exists x d, l = join [txt "d"; num x; num d].
Proof.
  induction sizes as [|d sizes IH]; intros v l H; [destruct H|]. destruct H as [<-|H]; eauto.
Qed.

Lemma join_comment w w' ws : is_comment (join (w :: w' :: ws)) = is_comment (w ++ [SP]).
Proof. change (join (w :: w' :: ws)) with (w ++ SP :: join (w' :: ws))%list. destruct w; reflexivity. Qed.

Theorem layout_documented_as p : documented_as (txt "cnf") p (layout p).
Proof.
  pose (hd := join [txt "p"; txt "cnf"; num (nvars p); num (Z.of_nat (length (clauses p)))]).
  pose (cs := map (fun c => join (map lit_text c ++ [txt "0"])) (clauses p)).
  assert (HD : forall sizes v, domain_lines v sizes (domain_rows v sizes)).
  { induction sizes as [|d sizes IH]; intro v; [exact I|]. split; [|apply IH]. split; [eexists; reflexivity|].
    apply words_join. intros w [<-|[<-|[<-|[]]]]; try apply num_solid. apply txt_solid; [reflexivity|discriminate]. }
  assert (HC : forall C, Forall2 clause_line C (map (fun c => join (map lit_text c ++ [txt "0"])) C)).
  { induction C as [|c C IH]; constructor; auto. apply words_join. intros w Hw. apply in_app_or in Hw.
    destruct Hw as [Hw|[<-|[]]]; [|apply txt_solid; [reflexivity|discriminate]].
    apply in_map_iff in Hw. destruct Hw as (l & <- & _). apply lit_solid. }
  assert (FC : forall C cs, Forall2 clause_line C cs -> filter (fun l => negb (is_comment l)) cs = cs).
  { intros C cs0 H. induction H as [|c l C cs0 H HH IH]; auto. cbn [filter].
    destruct l as [|a l].
    - simpl. rewrite IH. auto.
    - cbn [is_comment]. destruct (clause_char_ok a (clause_chars c _ H a (or_introl eq_refl))) as (_ & Hc & _).
      rewrite (proj2 (Ascii.eqb_neq a "c") Hc). simpl. rewrite IH. auto. }
  exists (hd :: domain_rows 1 (doms p) ++ cs), hd, (domain_rows 1 (doms p)), cs.
  split; [|split; [|split; [|split]]].
  - split; [|left; reflexivity]. intros l [<-|Hl].
    + apply join_no_lf. intros w [<-|[<-|[<-|[<-|[]]]]]; try apply num_no_lf; simpl; intuition discriminate.
    + apply in_app_or in Hl. destruct Hl as [Hl|Hl].
      * apply in_domain_rows in Hl. destruct Hl as (x & d & ->). apply join_no_lf.
        intros w [<-|[<-|[<-|[]]]]; try apply num_no_lf; simpl; intuition discriminate.
      * apply in_map_iff in Hl. destruct Hl as (c & <- & _). apply join_no_lf. intros w Hw. apply in_app_or in Hw.
        destruct Hw as [Hw|[<-|[]]]; [|simpl; intuition discriminate].
        apply in_map_iff in Hw. destruct Hw as (x & <- & _). apply lit_no_lf.
  - cbn [filter]. unfold hd. rewrite join_comment. cbn [is_comment txt app]. simpl negb. cbn iota. f_equal.
    rewrite filter_app. f_equal; [|apply (FC (clauses p)); apply HC].
    generalize 1. induction (doms p) as [|d sizes IH]; intro v; auto. cbn [domain_rows filter].
    rewrite join_comment. simpl negb. cbn iota. rewrite IH. auto.
  - split; [eexists; reflexivity|]. apply words_join.
    intros w [<-|[<-|[<-|[<-|[]]]]]; try apply num_solid; apply txt_solid; try reflexivity; discriminate.
  - apply HD.
  - apply HC.
Qed.

Theorem layout_documented p : documented p (layout p).
Proof. left. apply layout_documented_as. Qed.

(** ** Running the solver on a file *)

Theorem solve_accepted fuel m c clk r p t : wf p -> fits_int p -> accepted p t -> lines_below 3000 t ->
  solve_file fuel m c clk r t = solve fuel m c clk r p.
Proof.
  intros W F D L. unfold solve_file, build_file, solve. rewrite (read_accepted p t W F D L). reflexivity.
Qed.

Theorem solve_documented fuel m c clk r p t : wf p -> fits_int p -> documented p t -> lines_below 3000 t ->
  solve_file fuel m c clk r t = solve fuel m c clk r p.
Proof.
  intros W F D L. unfold solve_file, build_file, solve. rewrite (read_documented p t W F D L). reflexivity.
Qed.
