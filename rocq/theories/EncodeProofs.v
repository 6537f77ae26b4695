(** * The theorems about the encoders *)

From Coq Require Import Ascii String.
From Verif Require Import Spec Outcome State Base Observe Cases TextSpec ModelText EncodeSpec ModelEncode Text Read Encode Quad Linear EncodeMore
  FileCases EncodeCases.
#[local] Open Scope Z_scope.

Lemma sum_minus ds : zsum (map (fun d => 4 * (d - 1)) ds) = 4 * zsum ds - 4 * Z.of_nat (length ds).
Proof. induction ds as [|d ds IH]; [reflexivity|]. unfold zsum in *. cbn [map fold_right]. rewrite IH. simpl length. lia. Qed.

Lemma lin_nc_bound p : lin_nc p <= 4 * zsum (doms p) + Z.of_nat (length (clauses p)).
Proof. unfold lin_nc. rewrite sum_minus. lia. Qed.

Lemma half p : wf p -> 4 * zsum (doms p) + Z.of_nat (length (clauses p)) <= int_max -> 2 * zsum (doms p) <= int_max.
Proof.
  intros (W1 & _) F. assert (0 <= zsum (doms p)) by (apply zsum_nonneg; intros x Hx; specialize (W1 x Hx); lia). lia.
Qed.

Theorem linear_models p t : wf p -> clauses p <> [] -> two_valued_positive p ->
  2 * zsum (doms p) <= int_max -> 4 * zsum (doms p) + Z.of_nat (length (clauses p)) <= int_max ->
  documented_as (txt "cnf") p t -> lines_below 3000 t ->
  exists t' nv nc f e, linear_encode t = Ok t' /\ dimacs nv nc f t' /\
    (forall a, is_model p a -> exists b, cnf_holds b f /\ corresponds p e b a) /\
    (forall b, cnf_holds b f -> exists a, is_model p a /\ corresponds p e b a).
Proof.
  intros W NC TV F1 F2 D LB. pose proof (lin_nc_bound p) as B.
  destruct (linear_written p t W NC TV F1 ltac:(lia) D LB) as (t' & E & G & _). destruct (lin_models p W TV) as (M1 & M2).
  exists t', (lin_nv p), (lin_nc p), (lin_cnf p), (lin_eq p). split; auto. split; auto. split; auto.
  intros a Ha. exists (interp p a). apply M1. auto.
Qed.

Theorem linear_satisfiable p t t' nv nc f : wf p -> clauses p <> [] -> two_valued_positive p ->
  2 * zsum (doms p) <= int_max -> 4 * zsum (doms p) + Z.of_nat (length (clauses p)) <= int_max ->
  documented_as (txt "cnf") p t -> lines_below 3000 t ->
  linear_encode t = Ok t' -> dimacs nv nc f t' ->
  (satisfiable p <-> exists b, cnf_holds b f).
Proof.
  intros W NC TV F1 F2 D LB E G. destruct (linear_models p t W NC TV F1 F2 D LB) as (t2 & nv2 & nc2 & f2 & e & E2 & G2 & M1 & M2).
  rewrite E in E2. injection E2 as <-. destruct (dimacs_unique _ _ _ _ _ _ _ G G2) as (_ & _ & <-). split.
  - intros (a & Ha). destruct (M1 a Ha) as (b & Hb & _). eauto.
  - intros (b & Hb). destruct (M2 b Hb) as (a & Ha & _). exists a. auto.
Qed.

Theorem linear_header p t t' nv nc f : wf p -> clauses p <> [] -> two_valued_positive p ->
  2 * zsum (doms p) <= int_max -> 4 * zsum (doms p) + Z.of_nat (length (clauses p)) <= int_max ->
  documented_as (txt "cnf") p t -> lines_below 3000 t ->
  linear_encode t = Ok t' -> dimacs nv nc f t' ->
  (forall c z, In c f -> In z c -> 1 <= Z.abs z <= nv - 2 * twos p) /\ nc = Z.of_nat (length f) + 4 * twos p.
Proof.
  intros W NC TV F1 F2 D LB E G. pose proof (lin_nc_bound p) as B.
  destruct (linear_written p t W NC TV F1 ltac:(lia) D LB) as (t2 & E2 & G2 & _). rewrite E in E2. injection E2 as <-.
  destruct (dimacs_unique _ _ _ _ _ _ _ G G2) as (-> & -> & ->). destruct (lin_count p W) as (C1 & C2). rewrite twos_count in *.
  split; [|lia]. intros c z Hc Hz. pose proof (lin_vars p W c z Hc Hz). lia.
Qed.

Theorem linear_empty p t : wf p -> clauses p = [] -> nvars p < int_max -> 4 * zsum (doms p) <= int_max ->
  documented_as (txt "cnf") p t -> lines_below 3000 t -> linear_encode t = Ok [].
Proof.
  intros W NC F0 F1 D LB. pose proof (lin_nc_bound p) as B. rewrite NC in B. simpl length in B.
  assert (0 <= zsum (doms p)). { destruct W as (W1 & _). apply zsum_nonneg. intros x Hx. specialize (W1 x Hx). lia. }
  apply (linear_no_clauses p t); auto; lia.
Qed.

Lemma quad_bounds p : wf p -> (forall d, In d (doms p) -> d <= 12) ->
  zsum (doms p) <= 12 * nvars p /\ quad_clauses p <= 67 * nvars p + Z.of_nat (length (clauses p)).
Proof.
  intros (W1 & _) D. unfold quad_clauses, nvars.
  assert (G : zsum (doms p) <= 12 * Z.of_nat (length (doms p)) /\ zsum (map quad_count (doms p)) <= 67 * Z.of_nat (length (doms p))); [|lia].
  induction (doms p) as [|d ds IH]; [split; reflexivity|]. destruct IH as (I1 & I2); [intros; apply W1; right; auto|intros; apply D; right; auto|].
  pose proof (W1 d (or_introl eq_refl)). pose proof (D d (or_introl eq_refl)). unfold zsum in *. cbn [map fold_right]. simpl length. split; [lia|].
  assert (quad_count d <= 67); [|lia]. unfold quad_count. assert (d * (d - 1) / 2 <= 132 / 2); [apply Z.div_le_mono; [lia|nia]|].
  change (132 / 2) with 66 in *. lia.
Qed.

Theorem quadratic_models p t : wf p -> clauses p <> [] -> (forall d, In d (doms p) -> d <= 12) ->
  12 * nvars p <= int_max -> 67 * nvars p + Z.of_nat (length (clauses p)) <= int_max ->
  documented_as (txt "cnf") p t -> lines_below 3000 t ->
  exists t' nv nc f, quadratic_encode t = Ok t' /\ atom_cnf nv nc f t' /\
    (forall a, is_model p a -> exists b, atoms_hold b f /\ atoms_correspond p b a) /\
    (forall b, atoms_hold b f -> exists a, is_model p a /\ atoms_correspond p b a).
Proof.
  intros W NC D12 F1 F2 D LB. destruct (quad_bounds p W D12) as (B1 & B2). destruct (quad_models p W) as (M1 & M2).
  destruct (quadratic_written p t W NC D12) as (t' & E & G); auto; try (unfold quad_vars, nvars in *; lia).
  exists t', (quad_vars p), (quad_clauses p), (quad_cnf p). split; auto. split; auto. split; auto.
  intros a Ha. exists (fun v d => a v =? d). split; auto. intros v d _ _. apply Z.eqb_eq.
Qed.

Theorem quadratic_header p t t' nv nc f : wf p -> clauses p <> [] -> (forall d, In d (doms p) -> d <= 12) ->
  12 * nvars p <= int_max -> 67 * nvars p + Z.of_nat (length (clauses p)) <= int_max ->
  documented_as (txt "cnf") p t -> lines_below 3000 t ->
  quadratic_encode t = Ok t' -> atom_cnf nv nc f t' ->
  nv = zsum (doms p) /\ nc = Z.of_nat (length f).
Proof.
  intros W NC D12 F1 F2 D LB E G. destruct (quad_bounds p W D12) as (B1 & B2).
  destruct (quadratic_written p t W NC D12) as (t2 & E2 & G2); auto; try (unfold quad_vars, nvars in *; lia).
  rewrite E in E2. injection E2 as <-. destruct (atom_cnf_unique _ _ _ _ _ _ _ G G2) as (-> & -> & ->).
  split; [reflexivity|]. rewrite quad_cnf_count by auto. reflexivity.
Qed.

Theorem quadratic_empty p t : wf p -> clauses p = [] -> (forall d, In d (doms p) -> d <= 12) -> 67 * nvars p <= int_max ->
  documented_as (txt "cnf") p t -> lines_below 3000 t -> quadratic_encode t = Ok [].
Proof.
  intros W NC D12 F D LB. destruct (quad_bounds p W D12) as (B1 & B2). rewrite NC in B2. simpl length in B2.
  apply (quadratic_no_clauses p t); auto; unfold quad_vars, nvars in *; lia.
Qed.

(** ** Cases *)

Lemma enc_fine : wf p_enc /\ clauses p_enc <> [] /\ two_valued_positive p_enc /\ documented_as (txt "cnf") p_enc f_enc /\
  lines_below 3000 f_enc /\ (forall d, In d (doms p_enc) -> d <= 12).
Proof.
  split; [apply wf_dec; reflexivity|]. split; [discriminate|]. split; [|split; [|split]].
  - intros c l [<-|[<-|[<-|[]]]] Hl; cbn [In] in Hl; repeat (destruct Hl as [<-|Hl]; [vm_compute; intro; congruence|]); destruct Hl.
  - eexists _, _, [_; _; _], [_; _; _]. split; [split; [|left; reflexivity]; apply no_lf_ok; reflexivity|].
    split; [vm_compute; reflexivity|]. split; [|split].
    + split; [eexists; reflexivity|vm_compute; reflexivity].
    + repeat split; try (eexists; reflexivity).
    + repeat constructor.
  - eapply lines_below_intro; [split; [|left; reflexivity]; apply no_lf_ok; reflexivity|].
    apply below_ok. vm_compute. reflexivity.
  - intros d [<-|[<-|[<-|[]]]]; lia.
Qed.

Lemma neg2_fine : wf p_neg2 /\ clauses p_neg2 <> [] /\ documented_as (txt "cnf") p_neg2 f_neg2 /\ lines_below 3000 f_neg2.
Proof.
  split; [apply wf_dec; reflexivity|]. split; [discriminate|]. split.
  - eexists _, _, [_], [_; _]. split; [split; [|left; reflexivity]; apply no_lf_ok; reflexivity|].
    split; [vm_compute; reflexivity|]. split; [|split].
    + split; [eexists; reflexivity|vm_compute; reflexivity].
    + repeat split; try (eexists; reflexivity).
    + repeat constructor.
  - eapply lines_below_intro; [split; [|left; reflexivity]; apply no_lf_ok; reflexivity|].
    apply below_ok. vm_compute. reflexivity.
Qed.

Definition out_neg2 : text := unlines (map txt ["p cnf 3 6"; "-1 0"; "1 0"]%string).

Lemma linear_negative :
  exists p t t' nv nc f, wf p /\ clauses p <> [] /\ documented_as (txt "cnf") p t /\ lines_below 3000 t /\
    linear_encode t = Ok t' /\ dimacs nv nc f t' /\ satisfiable p /\ ~ exists b, cnf_holds b f.
Proof.
  destruct neg2_fine as (H1 & H2 & H3 & H4).
  exists p_neg2, f_neg2, out_neg2, 3, 6, [[-1]; [1]]. split; [exact H1|]. split; [exact H2|]. split; [exact H3|]. split; [exact H4|].
  split; [vm_compute; reflexivity|]. split; [|split].
  - eexists _, [_; _]. split; [split; [|left; reflexivity]; apply no_lf_ok; reflexivity|]. split; [vm_compute; reflexivity|]. repeat constructor.
  - exists (fun _ => 0). split.
    + intros v R. change (nvars p_neg2) with 1 in R. replace v with 1 by lia. change (domsize p_neg2 1) with 2. lia.
    + intros c [<-|[<-|[]]]; eexists; (split; [left; reflexivity|]); cbn; lia.
  - intros (b & Hb). destruct (Hb [-1] (or_introl eq_refl)) as (z & [<-|[]] & K). destruct (Hb [1] (or_intror (or_introl eq_refl))) as (z' & [<-|[]] & K').
    cbn in K, K'. congruence.
Qed.

Lemma linear_header_wrong :
  exists p t t' nv nc f, wf p /\ clauses p <> [] /\ two_valued_positive p /\ documented_as (txt "cnf") p t /\ lines_below 3000 t /\
    linear_encode t = Ok t' /\ dimacs nv nc f t' /\ nc <> Z.of_nat (length f).
Proof.
  destruct enc_fine as (W & NC & TV & D & LB & _).
  destruct (linear_written p_enc f_enc W NC TV ltac:(vm_compute; discriminate) ltac:(vm_compute; discriminate) D LB) as (t' & E & G & _).
  exists p_enc, f_enc, t', (lin_nv p_enc), (lin_nc p_enc), (lin_cnf p_enc). do 7 (split; [auto; fail|]). vm_compute. discriminate.
Qed.

Lemma readme_mvcnf : documented_as (txt "mvcnf") p_readme f_readme /\ lines_below 3000 f_readme.
Proof.
  split.
  - eexists _, _, [_; _; _], [_; _; _; _]. split; [split; [|left; reflexivity]; apply no_lf_ok; reflexivity|].
    split; [vm_compute; reflexivity|]. split; [|split].
    + split; [eexists; reflexivity|vm_compute; reflexivity].
    + repeat split; try (eexists; reflexivity).
    + repeat constructor.
  - eapply lines_below_intro; [split; [|left; reflexivity]; apply no_lf_ok; reflexivity|].
    apply below_ok. vm_compute. reflexivity.
Qed.

Lemma mvcnf_case (f : text -> outcome text) :
  (forall p t, documented_as (txt "mvcnf") p t -> lines_below 3000 t -> f t = Undef Uninit) ->
  exists p t, wf p /\ documented p t /\ lines_below 3000 t /\ f t = Undef Uninit.
Proof.
  intro H. destruct readme_mvcnf as (D & LB). exists p_readme, f_readme. split; [apply wf_dec; reflexivity|].
  split; [right; auto|]. split; auto. apply (H p_readme); auto.
Qed.

Lemma overflow_case :
  exists p t, wf p /\ fits_int p /\ documented p t /\ lines_below 3000 t /\ quadratic_encode t = Undef Overflow.
Proof.
  assert (W : wf p_13) by (apply wf_dec; reflexivity).
  assert (F : fits_int p_13).
  { split; [|split]; [vm_compute; discriminate|vm_compute; discriminate|]. intros d [<-|[]]; vm_compute; discriminate. }
  assert (D : documented_as (txt "cnf") p_13 f_13).
  { eexists _, _, [_], [_]. split; [split; [|left; reflexivity]; apply no_lf_ok; reflexivity|].
    split; [vm_compute; reflexivity|]. split; [|split].
    - split; [eexists; reflexivity|vm_compute; reflexivity].
    - repeat split; try (eexists; reflexivity).
    - repeat constructor. }
  assert (LB : lines_below 3000 f_13).
  { eapply lines_below_intro; [split; [|left; reflexivity]; apply no_lf_ok; reflexivity|]. apply below_ok. vm_compute. reflexivity. }
  exists p_13, f_13. split; [exact W|]. split; [exact F|]. split; [left; exact D|]. split; [exact LB|].
  apply (quadratic_overflow p_13); auto. exists 13. split; [left; auto|lia].
Qed.
