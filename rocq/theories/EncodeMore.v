(** * Further facts about the encoders *)

From Coq Require Import Ascii String.
From Verif Require Import Spec Outcome State Base TextSpec ModelText EncodeSpec ModelEncode Text Read Encode Quad Linear.
#[local] Open Scope char_scope.
#[local] Open Scope Z_scope.

(** ** A file determines its clauses *)

Lemma map_inj_in {A B} (f : A -> B) : forall l1 l2, (forall x y, In x l1 -> In y l2 -> f x = f y -> x = y) -> map f l1 = map f l2 -> l1 = l2.
Proof.
  induction l1 as [|x l1 IH]; intros [|y l2] H E; try discriminate; auto. simpl in E. injection E as E1 E2.
  f_equal; [apply H; try (left; reflexivity); auto|]. apply IH; auto. intros a b Ha Hb. apply H; right; auto.
Qed.

Lemma rows_unique {A} (P : A -> Prop) (R : A -> text -> Prop) : (forall c c' l, P c -> P c' -> R c l -> R c' l -> c = c') ->
  forall f f' cs, (forall c, In c f -> P c) -> (forall c, In c f' -> P c) -> Forall2 R f cs -> Forall2 R f' cs -> f = f'.
Proof.
  intros U f f' cs H1 H2 H. revert f' H2. induction H as [|c l f cs H HH IH]; intros f' H2 H'; inversion H'; subst; auto. f_equal.
  - apply (U c x l); auto; [apply H1|apply H2]; left; auto.
  - apply IH; auto; intros; [apply H1|apply H2]; right; auto.
Qed.

Theorem dimacs_unique t nv nc f nv' nc' f' : dimacs nv nc f t -> dimacs nv' nc' f' t -> nv = nv' /\ nc = nc' /\ f = f'.
Proof.
  intros (h & cs & L & H & F) (h' & cs' & L' & H' & F'). pose proof (has_lines_unique _ _ _ L L') as E. injection E as <- <-.
  rewrite H in H'. injection H' as E1 E2. split; [apply num_inj; auto|]. split; [apply num_inj; auto|].
  apply (rows_unique (fun _ => True) (fun c l => words l = (map num c ++ [txt "0"])%list)) with (cs := cs); auto.
  intros c c' l _ _ R1 R2. rewrite R1 in R2. apply app_inj_tail in R2. destruct R2 as (R2 & _).
  apply (map_inj_in num) in R2; auto. intros; apply num_inj; auto.
Qed.

Lemma num_first z : 0 < z -> forall r, exists a s, (num z ++ r)%list = a :: s /\ a <> "-".
Proof.
  intros H r. destruct (num z) as [|a s] eqn:E.
  - pose proof (num_solid z) as (N & _). congruence.
  - exists a, (s ++ r)%list. split; auto. intros ->. destruct z as [|q|q]; try lia. 
    pose proof (scan_num (Z.pos q) [] I) as A. rewrite E in A. rewrite app_nil_r in A. unfold scan_int in A.
    destruct (scan_nat s) as [(z & s')|]; [|discriminate]. injection A as A _.
    pose proof (scan_num_nat (Z.pos q) [] ltac:(lia) I) as B. rewrite E in B. discriminate.
Qed.

Lemma atom_lit_inj x y : 0 < lvar x -> 0 < lvar y -> atom_lit_text x = atom_lit_text y -> x = y.
Proof.
  assert (G : forall v d v' d', (num v ++ "=" :: num d)%list = (num v' ++ "=" :: num d')%list -> v = v' /\ d = d').
  { intros v d v' d' E. pose proof (scan_num v ("=" :: num d) ltac:(reflexivity)) as A. pose proof (scan_num v' ("=" :: num d') ltac:(reflexivity)) as B.
    rewrite E in A. rewrite A in B. injection B as E1 E2. split; [auto|]. apply num_inj. auto. }
  destruct x as [v d e], y as [v' d' e']. unfold atom_lit_text. cbn [lvar lval leq]. intros Hv Hv'. destruct e, e'; cbn [app]; intro E.
  - apply G in E. destruct E. subst. reflexivity.
  - destruct (num_first v Hv ("=" :: num d)) as (a & s & E1 & N). rewrite E1 in E. injection E as E2 _. congruence.
  - destruct (num_first v' Hv' ("=" :: num d')) as (a & s & E1 & N). rewrite E1 in E. injection E as E2 _. congruence.
  - injection E as E. apply G in E. destruct E. subst. reflexivity.
Qed.

Lemma atom_not_zero l : atom_lit_text l <> txt "0".
Proof.
  unfold atom_lit_text. intro E. assert (H : In "=" (txt "0")).
  { rewrite <- E. apply in_or_app. right. apply in_or_app. right. left. auto. }
  simpl in H. intuition discriminate.
Qed.

Theorem atom_cnf_unique t nv nc f nv' nc' f' : atom_cnf nv nc f t -> atom_cnf nv' nc' f' t -> nv = nv' /\ nc = nc' /\ f = f'.
Proof.
  intros (P & h & cs & L & H & F) (P' & h' & cs' & L' & H' & F'). pose proof (has_lines_unique _ _ _ L L') as E. injection E as <- <-.
  rewrite H in H'. injection H' as E1 E2. split; [apply num_inj; auto|]. split; [apply num_inj; auto|].
  apply (rows_unique (fun c => forall l, In l c -> 0 < lvar l)
           (fun c l => words l = map atom_lit_text c \/ words l = (map atom_lit_text c ++ [txt "0"])%list)) with (cs := cs); eauto.
  assert (NZ : forall c r, map atom_lit_text c <> (r ++ [txt "0"])%list).
  { intros c r E. assert (I0 : In (txt "0") (map atom_lit_text c)) by (rewrite E; apply in_or_app; right; left; auto).
    apply in_map_iff in I0. destruct I0 as (l & El & _). exact (atom_not_zero l El). }
  intros c c' l Pc Pc' R1 R2.
  assert (M : map atom_lit_text c = map atom_lit_text c').
  { destruct R1 as [R1|R1], R2 as [R2|R2]; rewrite R1 in R2.
    - auto.
    - destruct (NZ _ _ R2).
    - symmetry in R2. destruct (NZ _ _ R2).
    - apply app_inj_tail in R2. tauto. }
  apply (map_inj_in atom_lit_text) in M; auto. intros x y Hx Hy. apply atom_lit_inj; auto.
Qed.

(** ** The header [p mvcnf] *)

Lemma linear_mvcnf p t : documented_as (txt "mvcnf") p t -> lines_below 3000 t -> linear_encode t = Undef Uninit.
Proof.
  intros (ls & hd & ds & cs & HL & FL & (Hs & Hh) & _) LB.
  unfold linear_encode. rewrite (getlines_has t ls HL (LB ls HL)). rewrite (fold_comments lin_line lin_comment), FL.
  destruct (scan_other_header no_regs _ _ hd Hs Hh) as (N & (r & El) & E).
  assert (EH : lin_line lin_start hd = Undef Uninit).
  { unfold lin_line. rewrite cstr_id by auto. rewrite El at 1. cbn beta iota. unfold lin_problem. cbn [l_regs lin_start]. rewrite E. reflexivity. }
  cbn [foldM]. rewrite EH. reflexivity.
Qed.

Lemma quadratic_mvcnf p t : documented_as (txt "mvcnf") p t -> lines_below 3000 t -> quadratic_encode t = Undef Uninit.
Proof.
  intros (ls & hd & ds & cs & HL & FL & (Hs & Hh) & _) LB.
  unfold quadratic_encode. rewrite (getlines_has t ls HL (LB ls HL)). rewrite (fold_comments quad_line quad_comment), FL.
  destruct (scan_other_header no_regs _ _ hd Hs Hh) as (N & (r & El) & E).
  assert (EH : quad_line quad_start hd = Undef Uninit).
  { unfold quad_line. rewrite cstr_id by auto. rewrite El at 1. cbn beta iota. unfold quad_problem. cbn [q_regs quad_start]. rewrite E. reflexivity. }
  cbn [foldM]. rewrite EH. reflexivity.
Qed.

(** ** Factorials *)

Lemma fact_big d : 13 <= d -> fact d = Undef Overflow.
Proof.
  intro H. unfold fact. assert (E : loop 1 (d + 1) = (loop 1 14 ++ loop 14 (d + 1))%list).
  { unfold loop. replace (Z.to_nat (d + 1 - 1)) with (Z.to_nat (14 - 1) + Z.to_nat (d + 1 - 14))%nat by lia.
    rewrite seq_app, map_app. f_equal. change (0 + Z.to_nat (14 - 1))%nat with 13%nat.
    assert (G : forall k m, map (fun q => 1 + Z.of_nat q) (seq (13 + m) k) = map (fun q => 14 + Z.of_nat q) (seq m k)).
    { induction k as [|k IH]; intro m; auto. cbn [seq map]. rewrite <- (IH (S m)). replace (S (13 + m)) with (13 + S m)%nat by lia. f_equal. lia. }
    exact (G _ 0%nat). }
  rewrite E, foldM_app. reflexivity.
Qed.

Lemma i32_cases z : i32 z = Ok z \/ i32 z = Undef Overflow.
Proof. unfold i32. destruct (in_int z); auto. Qed.

Lemma domains_overflow : forall sizes v ds s, domain_lines v sizes ds -> 0 <= v ->
  v + Z.of_nat (length sizes) - 1 <= int_max -> (forall d, In d sizes -> 2 <= d <= int_max) ->
  (exists d, In d sizes /\ 13 <= d) -> foldM quad_line ds s = Undef Overflow.
Proof.
  induction sizes as [|d sizes IH]; intros v ds s H Hv Hn Hs (d0 & Hd0 & B); [destruct Hd0|].
  destruct ds as [|l ds]; [destruct H|]. destruct H as (H1 & H2). simpl length in Hn.
  destruct (Hs d (or_introl eq_refl)) as (Hd1 & Hd2).
  destruct (scan_domain_line (q_regs s) v d l H1) as (N & (r & El) & E); [unfold int_ok; lia|unfold int_ok; lia|].
  cbn [foldM].
  assert (ES : quad_line s l = Undef Overflow \/ d <= 12 /\ exists s', quad_line s l = Ok s').
  { unfold quad_line. rewrite cstr_id by auto. rewrite El. cbn beta iota. unfold quad_domain. rewrite <- El. rewrite E. cbn [bind get g_var g_val].
    destruct (Z.ltb_spec d 0); [lia|]. destruct (i32_cases (q_var s + d)) as [X|X]; rewrite X; [|auto]. cbn [bind].
    destruct (Z_le_gt_dec d 12) as [D|D]; [|rewrite fact_big by lia; auto].
    destruct (fact_count d (conj Hd1 D)) as (f1 & f2 & f3 & f4 & E1 & E2 & E3 & E4 & E5).
    rewrite E1. cbn [bind]. rewrite (i32_ok (d - 2)) by lia. cbn [bind]. rewrite E2. cbn [bind]. rewrite E3. cbn [bind]. rewrite E4. cbn [bind].
    destruct (i32_cases (q_clause s + f1 / f4)) as [Y|Y]; rewrite Y; [|auto]. cbn [bind].
    destruct (i32_cases (q_clause s + f1 / f4 + 1)) as [Z|Z]; rewrite Z; [|auto]. cbn [bind]. right. eauto. }
  destruct ES as [ES|(D & s' & ES)]; rewrite ES; [reflexivity|]. cbn [bind].
  apply (IH (v + 1) ds s' H2); [lia|lia|intros; apply Hs; right; auto|]. exists d0. split; auto. destruct Hd0 as [->|]; [lia|auto].
Qed.

Theorem quadratic_overflow p t : wf p -> fits_int p -> (exists d, In d (doms p) /\ 13 <= d) ->
  documented_as (txt "cnf") p t -> lines_below 3000 t -> quadratic_encode t = Undef Overflow.
Proof.
  intros W (F1 & F2 & F3) B (ls & hd & ds & cs & HL & FL & (Hs & Hh) & HD & HC) LB. pose proof W as (W1 & W2).
  unfold quadratic_encode. rewrite (getlines_has t ls HL (LB ls HL)). rewrite (fold_comments quad_line quad_comment), FL.
  destruct (scan_header_line no_regs _ _ hd Hs Hh) as (N & (r & El) & E); [unfold int_ok, nvars in *; lia|unfold int_ok; lia|].
  assert (EH : exists s, quad_line quad_start hd = Ok s).
  { unfold quad_line. rewrite cstr_id by auto. rewrite El. cbn beta iota. rewrite <- El. unfold quad_problem.
    cbn [q_regs quad_start]. rewrite E. cbn [bind get g_val]. change (q_clause quad_start) with 0. rewrite Z.add_0_l.
    rewrite i32_ok by (unfold int_max in *; lia). eexists. reflexivity. }
  destruct EH as (s & EH). cbn [foldM]. rewrite EH. cbn [bind]. rewrite foldM_app.
  rewrite (domains_overflow (doms p) 1 ds s HD); auto; [lia|unfold nvars in F1; lia].
Qed.

(** ** Files without clauses *)

Theorem linear_no_clauses p t : wf p -> clauses p = [] -> nvars p < int_max -> 2 * zsum (doms p) <= int_max -> lin_nc p <= int_max ->
  documented_as (txt "cnf") p t -> lines_below 3000 t -> linear_encode t = Ok [].
Proof.
  intros W NC F0 F1 F2 (ls & hd & ds & cs & HL & FL & (Hs & Hh) & HD & HC) LB. pose proof W as (W1 & W2).
  rewrite NC in HC. inversion HC; subst. rewrite app_nil_r in FL. rewrite NC in Hh. unfold lin_nc in F2. rewrite NC in F2. simpl length in *.
  unfold linear_encode. rewrite (getlines_has t ls HL (LB ls HL)). rewrite (fold_comments lin_line lin_comment), FL.
  destruct (scan_header_line no_regs _ _ hd Hs Hh) as (N & (r & El) & E); [unfold int_ok, nvars in *; lia|unfold int_ok, int_max; lia|].
  set (s0 := mkLin (mkRegs (Some (nvars p)) (Some 0) None) (Some (nvars p + 1)) (fun _ => 2) (fun _ => None) 0 (nvars p) 0 0 false 0 []).
  assert (EH : lin_line lin_start hd = Ok s0).
  { unfold lin_line. rewrite cstr_id by auto. rewrite El at 1. cbn beta iota. unfold lin_problem.
    cbn [l_regs lin_start]. rewrite E. cbn [bind get g_val g_var]. unfold nvars in *. rewrite i32_ok by (unfold int_max in *; lia). cbn [bind].
    destruct (Z.ltb_spec (Z.of_nat (length (doms p)) + 1) 0); [lia|]. reflexivity. }
  cbn [foldM]. rewrite EH. cbn [bind].
  assert (UV : lin_nv p <= 2 * zsum (doms p)).
  { unfold lin_nv. rewrite <- zsum_double. apply zsum_le; intros x Hx; specialize (W1 x Hx). lia. }
  destruct (lin_domains (doms p) 1 ds s0 (nvars p + 1) HD) as (g & D & EG & L1 & L2); try (unfold s0; cbn [l_size l_new_clause l_new_var]; auto; lia).
  { unfold nvars. lia. } { unfold lin_nv in UV. unfold s0. cbn [l_new_var]. lia. }
  rewrite EG. reflexivity.
Qed.

Theorem quadratic_no_clauses p t : wf p -> clauses p = [] -> (forall d, In d (doms p) -> d <= 12) ->
  nvars p <= int_max -> quad_vars p <= int_max -> quad_clauses p <= int_max ->
  documented_as (txt "cnf") p t -> lines_below 3000 t -> quadratic_encode t = Ok [].
Proof.
  intros W NC D12 F1 F2 F3 (ls & hd & ds & cs & HL & FL & (Hs & Hh) & HD & HC) LB. pose proof W as (W1 & W2).
  unfold quad_clauses, quad_vars in *. rewrite NC in *. inversion HC; subst. rewrite app_nil_r in FL. simpl length in *.
  unfold quadratic_encode. rewrite (getlines_has t ls HL (LB ls HL)). rewrite (fold_comments quad_line quad_comment), FL.
  destruct (scan_header_line no_regs _ _ hd Hs Hh) as (N & (r & El) & E); [unfold int_ok, nvars in *; lia|unfold int_ok, int_max; lia|].
  assert (EH : quad_line quad_start hd = Ok (mkQuad (mkRegs (Some (nvars p)) (Some 0) None) 0 0 false [] [])).
  { unfold quad_line. rewrite cstr_id by auto. rewrite El at 1. cbn beta iota. unfold quad_problem.
    cbn [q_regs quad_start]. rewrite E. reflexivity. }
  cbn [foldM]. rewrite EH. cbn [bind].
  match goal with |- context [foldM quad_line ds ?s] => destruct (quad_domains (doms p) 1 ds s HD) as (g & EG); cbn [q_clause q_var]; try lia end.
  { unfold nvars in F1. lia. }
  { intros d Hd. specialize (W1 d Hd). specialize (D12 d Hd). lia. }
  rewrite EG. reflexivity.
Qed.

Lemma twos_count p : zsum (map two (doms p)) = twos p.
Proof.
  unfold twos. induction (doms p) as [|d ds IH]; [reflexivity|]. unfold zsum in *. cbn [map fold_right filter]. rewrite IH.
  unfold two. destruct (d =? 2); simpl length; lia.
Qed.
