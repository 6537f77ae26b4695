(** * Runs with linked watch lists *)

From Verif Require Import Spec WideSpec Outcome State ModelCounter ModelHeur ModelLearn ModelWatch ModelSearch ModelBuild ModelHeap
  HeapSpec Base Init Cdcl Nc Solve Watch WatchProp Wl SolveWl Fuel Runs Heap HeapSim.

Definition wl_case (p : problem) (c : cfg) : Prop := wf p /\ no_repeats p /\ watch c = true /\ lenient c = true /\ heur c <> BK.

Lemma never_undef fuel c clk r p u : wl_case p c -> solve fuel NonChrono c clk r p <> Undef u.
Proof. intros (W & N & Hw & Le & NB). apply run_total; [split; auto|split; auto]. Qed.

Lemma heap_report fuel c clk r p : wl_case p c ->
  (let* q := h_solve fuel c clk r p in Ok (fst q)) = (let* q := solve fuel NonChrono c clk r p in Ok (fst q)).
Proof.
  intro H. pose proof (never_undef fuel c clk r p) as U. destruct H as (W & N & Hw & H).
  pose proof (solve_sim fuel c clk r p Hw N) as S. destruct (solve fuel NonChrono c clk r p) as [q|u|]; cbn [sim bind] in *.
  - destruct S as (q' & -> & E & _). cbn [bind]. congruence.
  - exfalso. apply (U u); auto. exact (conj W (conj N (conj Hw H))).
  - rewrite S. reflexivity.
Qed.

Lemma heap_safe fuel c clk r p u : wl_case p c -> h_solve fuel c clk r p <> Undef u.
Proof.
  intros H E. pose proof (heap_report fuel c clk r p H) as R. rewrite E in R. cbn [bind] in R.
  destruct (solve fuel NonChrono c clk r p) as [q|v|] eqn:Q; cbn [bind] in R; try discriminate. apply (never_undef fuel c clk r p v H Q).
Qed.

Lemma final_WS fuel c clk r p rep s : wl_case p c -> solve fuel NonChrono c clk r p = Ok (rep, s) -> WS s.
Proof.
  intros (W & ND & Hw & Le & NB) E. unfold solve in E. destruct (build_ok c p (wf_usable p W)) as (t & s0 & EB & ST & B).
  rewrite EB in E. cbn [bind] in E. unfold solve_state in E. cbn [run_search] in E. rewrite Hw in E.
  pose proof (start_WI c p t s0 (wf_usable p W) ND Hw ST B) as H0.
  destruct (bu_misc _ _ _ _ B) as (L0 & _ & _ & B0 & _ & _ & _ & R0 & T0).
  destruct (wl_loop_ok c clk r t (clauses p) s0 r Hw Le NB H0 (rs_start r s0 R0 B0))
    as (N & v & s1 & E1 & (F1 & _) & _).
  apply bind_ok in E. destruct E as ((v2, s2) & E2 & E).
  assert (X : (v2, s2) = (v, s1)).
  { apply (settled_ok (fun f => wl_loop f c clk r r s0) N _ _ fuel); auto. intros; apply wl_loop_below; auto. }
  injection X as -> ->.
  assert (s = s1) as ->; [|apply WCS_ws; apply (wi_CS _ _ _ F1)].
  destruct v; try (apply bind_ok in E; destruct E as (b & _ & E)); congruence.
Qed.

Lemma heap_lists fuel c clk r p rep s h : wl_case p c -> h_solve fuel c clk r p = Ok (rep, (s, h)) ->
  exists W, holds_lists h W /\ forall l, NoDup (W l) /\
    forall n, In n (W l) <-> exists C, nth_error (cl s) n = Some C /\ (l = w0 s n \/ (2 <= length C)%nat /\ l = w1 s n).
Proof.
  intros H E. pose proof H as (W & N & Hw & _). pose proof (solve_sim fuel c clk r p Hw N) as S.
  pose proof (heap_report fuel c clk r p H) as Q. rewrite E in Q. cbn [bind] in Q.
  destruct (solve fuel NonChrono c clk r p) as [[rep' s']|u|] eqn:ES; cbn [sim bind] in *; try discriminate.
  destruct S as (q & E' & _ & (B & HL & F)). rewrite E in E'. injection E' as <-. cbn [fst snd] in *. subst s.
  pose proof (final_WS fuel c clk r p rep' s' H ES) as WSs. exists (wls s'). split; auto. intro l. split; [apply F|]. intro n. cbn [bare cl w0 w1 set_wls].
  split.
  - intro I. pose proof (ws_id _ WSs l n I) as L. destruct (nth_error (cl s') n) as [C|] eqn:EC.
    + exists C. split; auto. apply (WS_in_wls s' n C l WSs EC); auto.
    + apply nth_error_None in EC. lia.
  - intros (C & EC & I). apply (WS_in_wls s' n C l WSs EC); auto.
Qed.

Lemma heap_total c clk r p : wl_case p c -> exists N rep, forall fuel, (N <= fuel)%nat -> exists x, h_solve fuel c clk r p = Ok (rep, x).
Proof.
  intro H. pose proof H as (W & ND & Hw & Le & NB).
  assert (T : exists N rep s, forall fuel, (N <= fuel)%nat -> solve fuel NonChrono c clk r p = Ok (rep, s)).
  { apply run_total; [split; auto|split; auto]. }
  destruct T as (N & rep & s & T). exists N, rep. intros fuel B. pose proof (heap_report fuel c clk r p H) as R. rewrite (T fuel B) in R. cbn [bind fst] in R.
  destruct (h_solve fuel c clk r p) as [[rep' x]| |]; cbn [bind fst] in R; try discriminate. injection R as ->. eauto.
Qed.

(** ** The destructor of Variable *)

Lemma delete_all_ok : forall ps ns fuel h prv, linked (mem h) prv ps ns None -> NoDup ps -> (length ps <= fuel)%nat ->
  exists h', h_delete_all fuel h (first_or ps None) = Ok h' /\ top h' = top h /\ (forall p, mem h' p = if existsb (Nat.eqb p) ps then None else mem h p).
Proof.
  induction ps as [|p ps IH]; intros ns fuel h prv L N B.
  - exists h. destruct fuel; cbn; auto.
  - destruct ns as [|n ns]; [destruct L|]. cbn [linked] in L. destruct L as (E & L). destruct fuel as [|fuel]; [cbn in B; lia|].
    inversion N as [|x xs N1 N2]; subst. cbn [first_or h_delete_all]. unfold load. rewrite E. cbn [bind r_next]. unfold free, load. rewrite E. cbn [bind].
    destruct (IH ns fuel (mkHeap (updn (mem h) p None) (brk h) (top h)) (Some p)) as (h' & E' & T' & M'); auto.
    + cbn [mem]. eapply linked_frame; [|exact L]. intros q I. apply updn_other. intros ->. auto.
    + cbn in B. lia.
    + exists h'. split; [exact E'|]. split; [exact T'|]. intro q. rewrite M'. cbn [mem existsb]. destruct (Nat.eqb_spec q p) as [->|NQ]; cbn [orb].
      * destruct (existsb (Nat.eqb p) ps); auto. apply updn_same.
      * destruct (existsb (Nat.eqb q) ps); auto. apply updn_other; auto.
Qed.

Lemma destroy_nonempty h W l : holds_lists h W -> W l <> [] -> h_destroy h l = Undef BadPtr.
Proof.
  intros (A & S) N. pose proof S as (S1 & S2 & _). destruct (S1 l) as (T & L).
  destruct (delete_all_ok (A l) (W l) (brk h) h None L (S2 l)) as (h' & E & T' & M).
  { rewrite <- (seq_length (brk h) 0). apply NoDup_incl_length; auto. intros p I. apply in_seq. pose proof (stored_below _ _ _ _ _ S I). lia. }
  unfold h_destroy. rewrite T, E. cbn [bind]. rewrite T', T. destruct (A l) as [|p ps] eqn:EA.
  - apply linked_length in L. destruct (W l); [congruence|discriminate].
  - cbn [first_or]. unfold free, load. rewrite M. cbn [existsb]. rewrite Nat.eqb_refl. reflexivity.
Qed.

Lemma destroy_empty h W l : holds_lists h W -> W l = [] -> h_destroy h l = Ok h.
Proof.
  intros (A & S) N. pose proof S as (S1 & S2 & _). destruct (S1 l) as (T & L). rewrite N in L. destruct (A l) as [|p ps]; [|destruct L].
  unfold h_destroy. rewrite T. cbn [first_or]. destruct (brk h); cbn [h_delete_all bind]; rewrite T; reflexivity.
Qed.
