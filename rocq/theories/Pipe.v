(** * Programs run one after the other: what is written can be read again *)

From Coq Require Import Ascii String Permutation.
From Verif Require Import Spec Outcome State ModelSearch ModelBuild Runs Observe Base TextSpec ModelText ModelRead Text Read
  CliSpec ModelCli Cli EncodeSpec ModelEncode Encode Quad Linear EncodeMore EncodeProofs ModelB2f B2f
  ModelGen Gen GenFin GenText GenBool ModelMenu ModelMain MainSpec MainFacts MainMore Frame.
#[local] Open Scope char_scope.
#[local] Open Scope Z_scope.

(** ** The linear encoding as a Boolean problem *)

Lemma dimacs_bool_file nv f t : dimacs nv (Z.of_nat (length f)) f t -> starts "p" t -> bool_file nv f t.
Proof.
  intros (hd & cs & HL & Wh & F) (t0 & St). exists (hd :: cs), hd, cs. split; [exact HL|].
  assert (SH : starts "p" hd).
  { destruct HL as (_ & HT). destruct hd as [|a hd]; [discriminate Wh|].
    assert (E : exists r, t = a :: r).
    { destruct HT as [->|(HT & _)].
      - unfold unlines. cbn [map List.concat app]. eexists. reflexivity.
      - unfold unlines in HT. cbn [map List.concat app] in HT. destruct t as [|b t]; [discriminate|].
        cbn [app] in HT. injection HT as -> _. eauto. }
    destruct E as (r & E). rewrite St in E. injection E as <- _. eexists. reflexivity. }
  split; [|split; [exact SH|split; [exact Wh|exact F]]].
  destruct SH as (h & ->). cbn [filter is_comment Ascii.eqb Bool.eqb negb]. f_equal.
  clear -F. induction F as [|c l C cs H F IH]; [reflexivity|]. cbn [filter].
  destruct (row_chars c l H) as (_ & a & r & -> & N & _). cbn [is_comment]. destruct (Ascii.eqb_spec a "c"); [contradiction|].
  cbn [negb]. f_equal. exact IH.
Qed.

Definition threes (p : problem) : Prop := forall d, In d (doms p) -> 3 <= d.

Lemma three_dom p v : threes p -> 1 <= v <= nvars p -> 3 <= domsize p v.
Proof. intros T R. destruct (doms_nth p v R) as (i & _ & H). apply T. eapply nth_error_In; eauto. Qed.

Lemma three_positive p : wf p -> threes p -> two_valued_positive p.
Proof.
  intros (_ & W2) T c l Hc Hl E. destruct (W2 c Hc) as (_ & Wl). destruct (Wl l Hl) as (R & _).
  pose proof (three_dom p _ T R). lia.
Qed.

(** Every number below the end of a block lies in some block. *)
Lemma in_some_block p : wf p -> forall k z, 0 <= Z.of_nat k <= nvars p -> 1 <= z < start p (1 + Z.of_nat k) ->
  exists v, 1 <= v <= nvars p /\ start p v <= z < start p v + width (domsize p v).
Proof.
  intro W. induction k as [|k IH]; intros z R Hz; [rewrite start_one in Hz; lia|].
  destruct (Z_lt_le_dec z (start p (1 + Z.of_nat k))) as [L|L].
  - apply IH; lia.
  - exists (1 + Z.of_nat k). split; [lia|]. replace (1 + Z.of_nat (S k)) with (1 + Z.of_nat k + 1) in Hz by lia.
    rewrite start_next in Hz by lia. lia.
Qed.

Lemma start_end p : start p (nvars p + 1) = 1 + lin_used p.
Proof.
  unfold start, lin_used, nvars. replace (Z.to_nat (Z.of_nat (length (doms p)) + 1 - 1)) with (length (doms p)) by lia.
  rewrite firstn_all. reflexivity.
Qed.

Lemma lin_bool p : wf p -> threes p -> bool_cnf (lin_used p) (lin_cnf p).
Proof.
  intros W T. pose proof W as (W1 & W2). split.
  - intros c Hc. split; [|intros z Hz; apply (lin_vars p W c z Hc Hz)].
    unfold lin_cnf in Hc. apply in_app_or in Hc. destruct Hc as [Hc|Hc].
    + apply in_blocks in Hc. destruct Hc as (v & Rv & Hc). pose proof (three_dom p v T Rv) as D.
      apply in_block in Hc; [|lia].
      destruct Hc as [->|[->|[->|[(j & Hj & [->|[->| ->]])|(j & Hj & ->)]]]]; try discriminate.
      rewrite (loop_cons 0) by lia. discriminate.
    + apply in_map_iff in Hc. destruct Hc as (c0 & <- & Hc). destruct (W2 c0 Hc) as (Nn & _). destruct c0; [congruence|discriminate].
  - intros z Hz. destruct (in_some_block p W (Z.to_nat (nvars p)) z) as (v & Rv & Hv).
    { unfold nvars. lia. }
    { replace (1 + Z.of_nat (Z.to_nat (nvars p))) with (nvars p + 1) by (unfold nvars; lia). rewrite start_end. lia. }
    pose proof (three_dom p v T Rv) as D. pose proof (start_pos p v W Rv) as (S1 & _). unfold width in Hv.
    destruct (Z.eqb_spec (domsize p v) 2); [lia|]. set (x := start p v) in *. set (d := domsize p v) in *.
    destruct (Z_lt_le_dec z (x + d)) as [L|L].
    + exists (map (fun j => x + j) (loop 0 d)), z. split; [|split; [|lia]].
      * unfold lin_cnf. apply in_or_app. left. apply in_blocks. exists v. split; auto. apply in_block; [fold d; lia|]. left. reflexivity.
      * apply in_map_iff. exists (z - x). split; [lia|]. apply in_loop. lia.
    + exists [- (x + d + (z - x - d)); - (x + 1 + (z - x - d))], (- z). split; [|split; [|lia]].
      * unfold lin_cnf. apply in_or_app. left. apply in_blocks. exists v. split; auto. apply in_block; [fold d; lia|].
        fold x d. do 4 right. exists (z - x - d). split; [lia|reflexivity].
      * left. lia.
Qed.

(** ** Literals are not repeated *)

Lemma finite_lit_inj z z' : z <> 0 -> z' <> 0 -> finite_lit z = finite_lit z' -> z = z'.
Proof.
  intros N N' E. unfold finite_lit in E. injection E as E1 E2.
  destruct (Z.ltb_spec 0 z), (Z.ltb_spec 0 z'); try discriminate; lia.
Qed.

Lemma nodup_map {A B} (g : A -> B) l : (forall x y, In x l -> In y l -> g x = g y -> x = y) -> NoDup l -> NoDup (map g l).
Proof.
  induction l as [|x l IH]; intros I N; [constructor|]. inversion N; subst. cbn [map]. constructor.
  - rewrite in_map_iff. intros (y & E & Hy). assert (y = x) as -> by (apply I; auto; [right; auto|left; auto]). contradiction.
  - apply IH; auto. intros a b Ha Hb. apply I; right; auto.
Qed.

Lemma finite_no_repeats n f : bool_cnf n f -> (forall c, In c f -> NoDup c) -> no_repeats (finite_of n f).
Proof.
  intros (B & _) N c Hc. cbn [finite_of clauses] in Hc. apply in_map_iff in Hc. destruct Hc as (c0 & <- & Hc).
  destruct (B c0 Hc) as (_ & Bz). apply nodup_map; [|auto]. intros x y Hx Hy. pose proof (Bz x Hx). pose proof (Bz y Hy).
  apply finite_lit_inj; lia.
Qed.

Lemma loop_nodup i j : NoDup (loop i j).
Proof.
  unfold loop. apply nodup_map; [intros x y _ _; lia|]. apply seq_NoDup.
Qed.

Lemma block_of p v v' z : wf p -> 1 <= v <= nvars p -> 1 <= v' <= nvars p ->
  start p v <= z < start p v + width (domsize p v) -> start p v' <= z < start p v' + width (domsize p v') -> v = v'.
Proof.
  intros W R R' H H'.
  assert (M : forall k u, 1 <= u -> u + Z.of_nat k <= nvars p -> start p u + width (domsize p u) <= start p (u + 1 + Z.of_nat k)).
  { clear - W. induction k as [|k IH]; intros u U L.
    - rewrite Z.add_0_r, start_next by lia. lia.
    - specialize (IH u U ltac:(lia)). replace (u + 1 + Z.of_nat (S k)) with (u + 1 + Z.of_nat k + 1) by lia.
      rewrite start_next by lia.
      assert (Q : 2 <= domsize p (u + 1 + Z.of_nat k)).
      { destruct (doms_nth p (u + 1 + Z.of_nat k) ltac:(lia)) as (i & _ & Hi). destruct W as (W1 & _). apply W1. eapply nth_error_In; eauto. }
      pose proof (width_pos _ Q). lia. }
  destruct (Z.lt_trichotomy v v') as [L|[L|L]]; auto; exfalso.
  - pose proof (M (Z.to_nat (v' - v - 1)) v ltac:(lia) ltac:(lia)) as Q.
    replace (v + 1 + Z.of_nat (Z.to_nat (v' - v - 1))) with v' in Q by lia. lia.
  - pose proof (M (Z.to_nat (v - v' - 1)) v' ltac:(lia) ltac:(lia)) as Q.
    replace (v' + 1 + Z.of_nat (Z.to_nat (v - v' - 1))) with v in Q by lia. lia.
Qed.

Lemma lin_nodup p : wf p -> threes p -> no_repeats p -> forall c, In c (lin_cnf p) -> NoDup c.
Proof.
  intros W T NR c Hc. unfold lin_cnf in Hc. apply in_app_or in Hc. destruct Hc as [Hc|Hc].
  - apply in_blocks in Hc. destruct Hc as (v & Rv & Hc). pose proof (three_dom p v T Rv) as D.
    pose proof (start_pos p v W Rv) as (S1 & _). apply in_block in Hc; [|lia].
    destruct Hc as [->|[->|[->|[(j & Hj & [->|[->| ->]])|(j & Hj & ->)]]]].
    + apply nodup_map; [intros x y _ _; lia|apply loop_nodup].
    + repeat constructor; cbn [In]; intuition lia.
    + repeat constructor; cbn [In]; intuition lia.
    + repeat constructor; cbn [In]; intuition lia.
    + repeat constructor; cbn [In]; intuition lia.
    + repeat constructor; cbn [In]; intuition lia.
    + repeat constructor; cbn [In]; intuition lia.
  - apply in_map_iff in Hc. destruct Hc as (c0 & <- & Hc). apply nodup_map; [|apply NR; auto].
    pose proof W as (_ & W2). destruct (W2 c0 Hc) as (_ & Wl). intros l l' Hl Hl' E.
    destruct (Wl l Hl) as (R & D). destruct (Wl l' Hl') as (R' & D').
    pose proof (three_dom p _ T R) as T1. pose proof (three_dom p _ T R') as T2.
    pose proof (start_pos p _ W R) as (S1 & _). pose proof (start_pos p _ W R') as (S2 & _).
    unfold lin_lit in E. destruct (Z.ltb_spec 2 (domsize p (lvar l))) as [_|]; [|lia]. destruct (Z.ltb_spec 2 (domsize p (lvar l'))) as [_|]; [|lia].
    assert (EQ : start p (lvar l) + lval l = start p (lvar l') + lval l' /\ leq l = leq l').
    { destruct (leq l), (leq l'); split; auto; lia. }
    destruct EQ as (EV & EL).
    assert (V : lvar l = lvar l').
    { apply (block_of p _ _ (start p (lvar l) + lval l) W R R'); unfold width.
      - destruct (Z.eqb_spec (domsize p (lvar l)) 2); lia.
      - destruct (Z.eqb_spec (domsize p (lvar l')) 2); lia. }
    destruct l as [v d e], l' as [v' d' e']. cbn [lvar lval leq] in *. subst v' e'. f_equal. lia.
Qed.

(** ** Linear encoding, then conversion *)

Lemma two_none p : threes p -> zsum (map two (doms p)) = 0.
Proof.
  unfold threes. induction (doms p) as [|d l IH]; intro T; [reflexivity|]. cbn [map]. unfold zsum in *. cbn [fold_right].
  rewrite IH by (intros; apply T; right; auto). pose proof (T d (or_introl eq_refl)). unfold two. destruct (Z.eqb_spec d 2); lia.
Qed.

Theorem linear_then_finite p t : wf p -> clauses p <> [] -> threes p ->
  4 * zsum (doms p) + Z.of_nat (length (clauses p)) <= int_max ->
  documented_as (txt "cnf") p t -> lines_below 3000 t ->
  exists t' q, linear_encode t = Ok t' /\ wf q /\ fits_int q /\ (no_repeats p -> no_repeats q) /\
    (satisfiable q <-> satisfiable p) /\
    (lines_below 3000 t' -> exists t2, boolean2finite t' = Ok t2 /\ readable q t2 /\ (lines_below 1500 t' -> lines_below 3000 t2)).
Proof.
  intros W NE T F D L. pose proof (three_positive p W T) as TP. pose proof W as (W1 & _).
  assert (Z0 : 0 <= zsum (doms p)) by (apply zsum_nonneg; intros x Hx; specialize (W1 x Hx); lia).
  assert (NC : lin_nc p <= int_max).
  { unfold lin_nc. assert (zsum (map (fun d => 4 * (d - 1)) (doms p)) <= 4 * zsum (doms p)); [|lia].
    clear. induction (doms p) as [|d l IH]; [reflexivity|]. unfold zsum in *. cbn [map fold_right]. lia. }
  destruct (linear_written p t W NE TP ltac:(lia) NC D L) as (t' & E & G & SP').
  destruct (lin_count p W) as (C1 & C2). rewrite two_none in C1, C2 by auto. rewrite Z.mul_0_r, Z.add_0_r in C1, C2.
  rewrite C1, C2 in G. pose proof (lin_bool p W T) as B.
  assert (U0 : 0 <= lin_used p <= int_max).
  { unfold lin_used. split.
    - apply zsum_nonneg. intros y Hy. apply in_map_iff in Hy. destruct Hy as (q & <- & Hq). pose proof (width_pos q (W1 q Hq)). lia.
    - assert (zsum (map width (doms p)) <= 2 * zsum (doms p)); [|lia]. rewrite <- zsum_double. apply zsum_le. intros x Hx.
      specialize (W1 x Hx). unfold width. destruct (x =? 2) eqn:Ex; lia. }
  exists t', (finite_of (lin_used p) (lin_cnf p)). split; [exact E|]. split; [apply finite_wf; auto; lia|].
  split; [apply finite_fits; auto; lia|]. split; [intro NR; apply finite_no_repeats; auto; apply lin_nodup; auto|]. split.
  - rewrite finite_sat by (auto; lia). destruct (lin_models p W TP) as (M1 & M2). split.
    + intros (b & Hb). destruct (M2 b Hb) as (a & A & _). exists a. exact A.
    + intros (a & A). exists (interp p a). apply M1. exact A.
  - intro L3. apply b2f_written; auto. { intro Q. rewrite Q in C1. cbn [length] in C1. unfold lin_cnf in Q. apply app_eq_nil in Q. destruct Q as [_ Q]. destruct (clauses p); [congruence|discriminate]. }
    apply dimacs_bool_file; auto.
Qed.

(** ** Runs *)

(** The run succeeds and writes [t'] to the file [g], and nothing else. *)
Definition wrote (w : machine) (g t' : text) (r : ran) : Prop :=
  screen r = title /\ status r = 0 /\ after r g = Some t' /\ forall h, h <> g -> after r h = files_of w h.

Lemma wrote_run w g t' : wrote w g t' (mkRan title 0 (write_file (files_of w) g t')).
Proof. split; [reflexivity|]. split; [reflexivity|]. split; [apply write_same|]. intros h N. apply write_other. auto. Qed.

(** The arguments name the input file [f] and the output file [g]. *)
Definition names (os : list opt) (f g : text) : Prop :=
  Forall conv_option os /\ latest sel_file os None = Some f /\ latest sel_model os None = Some g.

(** What [right] says about a problem with the same models up to renaming. *)
Definition answers (p : problem) (late : nat -> bool) (word : text) : Prop :=
  word = txt "SAT" /\ satisfiable p \/ word = txt "UNSAT" /\ ~ satisfiable p \/ word = txt "TIMEOUT" /\ exists k, late k = true.

(** The screen of a solver run shows that answer. *)
Definition shows (r : ran) (word : text) : Prop :=
  status r = 0 /\ exists before after, screen r = before ++ LF :: BEL :: word ++ LF :: after.


Lemma right_answers p q lazy verbose late v rest : (satisfiable q <-> satisfiable p) -> right q lazy verbose late v rest -> answers p late v.
Proof.
  intros S [ls a A _|U|k K]; [left|right; left|right; right]; split; auto; [apply S; exists a; exact A|rewrite <- S; exact U|eauto].
Qed.

Lemma shows_answer f t1 t2 t3 log v d u b e n m r rest fs :
  shows (mkRan (solver_screen f t1 t2 t3 log (answer_lines v d u b e n m r ++ rest)) 0 fs) v.
Proof.
  split; [reflexivity|]. cbn [screen]. unfold solver_screen, answer_lines. rewrite !unlines_cons. cbn [app].
  rewrite unlines_cons. cbn [app].
  eexists (title ++ f ++ SP :: TAB :: t1 ++ TAB :: log ++ t2 ++ TAB :: SP :: t3 ++ [TAB; LF]), _.
  repeat (rewrite <- ?app_assoc; cbn [app]). reflexivity.
Qed.

Theorem pipe_linear w1 w2 w3 os1 os2 args c m f g h t p :
  names os1 f g -> names os2 g h -> dispatch args = Ok (SolveFinite c m) -> c_file c = Some h -> f <> g -> g <> h ->
  0 <= c_clause_size c -> missing_return w3 = true -> writable w1 g = true -> writable w2 h = true ->
  wf p -> clauses p <> [] -> (forall d, In d (doms p) -> 3 <= d) -> (m = NonChrono -> no_repeats p) ->
  4 * zsum (doms p) + Z.of_nat (length (clauses p)) <= int_max -> documented_as (txt "cnf") p t -> lines_below 3000 t ->
  files_of w1 f = Some t ->
  exists r1 t1, (forall fuel, main fuel (txt "-linenc" :: args_of os1) w1 = Ok r1) /\ after r1 g = Some t1 /\
    (lines_below 1500 t1 -> files_of w2 = after r1 ->
     exists r2, (forall fuel, main fuel (txt "-b2f" :: args_of os2) w2 = Ok r2) /\
       (files_of w3 = after r2 ->
        exists N r3 v, (forall fuel, (N <= fuel)%nat -> main fuel args w3 = Ok r3) /\ shows r3 v /\ answers p (late_at w3 (c_time c)) v)).
Proof.
  intros (H1 & Ef1 & Eg1) (H2 & Ef2 & Eg2) Ed Ec N1 N2 Hs Hm Ew1 Ew2 W NE T NR F D L Et.
  destruct (conv_dispatch os1 H1) as (c1 & Cf1 & Cg1 & _ & E1 & _). destruct (conv_dispatch os2 H2) as (c2 & Cf2 & Cg2 & E2 & _ & _).
  destruct (linear_then_finite p t W NE T F D L) as (t1 & q & Et1 & Wq & Fq & NRq & Sq & B).
  exists (mkRan title 0 (write_file (files_of w1) g t1)), t1. split.
  { intro fuel. unfold main. rewrite E1. cbn [bind]. apply (convert_run _ _ _ w1 c1 f g t t1); congruence. }
  split; [apply write_same|]. intros L1 A1. cbn [after] in A1.
  assert (L3 : lines_below 3000 t1). { intros ls Hls l Hl. specialize (L1 ls Hls l Hl). lia. }
  destruct (B L3) as (t2 & Et2 & R2 & L2). specialize (L2 L1).
  exists (mkRan title 0 (write_file (files_of w2) h t2)). split.
  { intro fuel. unfold main. rewrite E2. cbn [bind]. apply (convert_run _ _ _ w2 c2 g h t1 t2); try congruence.
    rewrite A1. apply write_same. }
  intro A2. cbn [after] in A2.
  destruct (solver_run args c m w3 h t2 q Ed Ec) as (N & v & rest & d & u & b & e & n & r & RR & _ & _ & M); auto.
  { rewrite A2. apply write_same. } { apply readable_accepted; auto. }
  exists N. eexists. exists v. split; [exact M|]. split; [apply shows_answer|]. apply (right_answers p q _ _ _ _ _ Sq RR).
Qed.

Theorem pipe_finite w1 w2 os args c m f g t n fm :
  names os f g -> dispatch args = Ok (SolveFinite c m) -> c_file c = Some g -> f <> g ->
  0 <= c_clause_size c -> missing_return w2 = true -> writable w1 g = true ->
  bool_cnf n fm -> fm <> [] -> 0 <= n <= int_max -> Z.of_nat (length fm) <= int_max -> (m = NonChrono -> forall c, In c fm -> NoDup c) ->
  bool_file n fm t -> lines_below 1500 t -> files_of w1 f = Some t ->
  exists r1, (forall fuel, main fuel (txt "-b2f" :: args_of os) w1 = Ok r1) /\
    (files_of w2 = after r1 ->
     exists N r2 v, (forall fuel, (N <= fuel)%nat -> main fuel args w2 = Ok r2) /\ shows r2 v /\
       (v = txt "SAT" /\ (exists b, cnf_holds b fm) \/ v = txt "UNSAT" /\ (forall b, ~ cnf_holds b fm) \/
        v = txt "TIMEOUT" /\ exists k, late_at w2 (c_time c) k = true)).
Proof.
  intros (H1 & Ef1 & Eg1) Ed Ec N1 Hs Hm Ew1 B NE Hn Hf NR D L Et.
  destruct (conv_dispatch os H1) as (c1 & Cf1 & Cg1 & E1 & _).
  assert (L3 : lines_below 3000 t). { intros ls Hls l Hl. specialize (L ls Hls l Hl). lia. }
  destruct (b2f_written n fm t B NE Hn D L3) as (t2 & Et2 & R2 & L2). specialize (L2 L).
  exists (mkRan title 0 (write_file (files_of w1) g t2)). split.
  { intro fuel. unfold main. rewrite E1. cbn [bind]. apply (convert_run _ _ _ w1 c1 f g t t2); congruence. }
  intro A2. cbn [after] in A2.
  destruct (solver_run args c m w2 g t2 (finite_of n fm) Ed Ec) as (N & v & rest & d & u & b & e & k & r & RR & _ & _ & M); auto.
  { rewrite A2. apply write_same. } { apply finite_wf; auto; lia. } { intro Q. apply finite_no_repeats; auto. } { apply finite_fits; auto. }
  { apply readable_accepted; auto. apply finite_fits; auto. }
  exists N. eexists. exists v. split; [exact M|]. split; [apply shows_answer|].
  pose proof (right_answers _ _ _ _ _ _ _ (iff_refl _) RR) as A. pose proof (finite_sat n fm B ltac:(lia)) as S.
  destruct A as [(-> & A)|[(-> & A)|(-> & A)]].
  - left. split; auto. apply S. exact A.
  - right. left. split; auto. intros b0 Hb. apply A, S. eauto.
  - right. right. auto.
Qed.

Theorem pipe_generate w1 w2 args1 args c1 c m f fuel1 r1 :
  dispatch args1 = Ok (GenBenFin c1) -> c_file c1 = Some f -> dispatch args = Ok (SolveFinite c m) -> c_file c = Some f ->
  0 <= c_clause_size c -> missing_return w2 = true -> writable w1 f = true -> (forall x, In x (numbers_of w1) -> 0 <= x) ->
  c_sat c1 = true -> c_drand c1 = false -> 2 <= c_domain c1 <= int_max -> 1 <= c_clause_size c1 <= 136 ->
  c_num_var c1 <= int_max -> c_num_clause c1 <= int_max ->
  main fuel1 args1 w1 = Ok r1 -> files_of w2 = after r1 ->
  exists N r2 v, (forall fuel, (N <= fuel)%nat -> main fuel args w2 = Ok r2) /\ shows r2 v /\
    (v = txt "SAT" \/ v = txt "TIMEOUT" /\ exists k, late_at w2 (c_time c) k = true).
Proof.
  intros Ed1 Ef1 Ed Ec Hs Hm Ew Hr HS HD Hd Hz Hv Hc E1 A1. unfold main in E1. rewrite Ed1 in E1. cbn [bind] in E1.
  unfold run_generate in E1. apply bind_ok in E1. destruct E1 as (t & Eg & E1). rewrite Ef1, Ew in E1. injection E1 as <-. cbn [after] in A1.
  destruct (gen_fin_solve c1 (numbers_of w1) t Hr) as (p & G & F & D & L & S); auto; try lia.
  assert (D2 : forall d, In d (doms p) -> 2 <= d). { intros d Hin. rewrite (g_fixed _ _ G HD d Hin). lia. }
  destruct (S D2 ltac:(lia)) as (W & NR & _).
  destruct (solver_run args c m w2 f t p Ed Ec) as (N & v & rest & d & u & b & e & k & r & RR & _ & _ & M); auto.
  { rewrite A1. apply write_same. } { apply readable_accepted, documented_readable; auto. }
  exists N. eexists. exists v. split; [exact M|]. split; [apply shows_answer|].
  destruct (right_answers _ _ _ _ _ _ _ (iff_refl _) RR) as [(-> & A)|[(-> & A)|(-> & A)]]; auto.
  exfalso. apply A. apply (g_sat _ _ G); auto; lia.
Qed.
