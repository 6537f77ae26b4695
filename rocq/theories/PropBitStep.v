(** * Theorems about single steps of the second solver: scores, choices, conflicts

    The vocabulary is in BitStepSpec. *)

From Coq Require Import Floats.SpecFloat.
From Verif Require Import Spec Outcome State ModelSearch ModelBuild ModelBit BitSpec BitStepSpec BitRuns ScoreSpec Observe Cases
  BitNode BitScores BitStep.

Definition plain : bcfg := mkBcfg false true.
Definition scored : bcfg := mkBcfg true true.

(** The state after [n] iterations, for the examples. *)
Fixpoint after (n : nat) (cf : bcfg) (p : problem) : outcome (Z * bst) :=
  match n with
  | O => let* s := bbuild (items_of p) in Ok (0, s)
  | S n' => let* q := after n' cf p in let* x := biter 100 cf never 0 (fst q) (snd q) in
      match x with inr q' => Ok q' | inl _ => OutOfFuel end
  end.
Lemma after_reached n cf p rc s : after n cf p = Ok (rc, s) -> bit_reached cf never 0 p rc s.
Proof.
  revert rc s. induction n as [|n IH]; intros rc s H; cbn [after] in H; apply Base.bind_ok in H; destruct H as (q & E & H).
  - injection H as <- <-. apply bit_first. auto.
  - apply Base.bind_ok in H. destruct H as ([y|(rc', s')] & E' & H); [discriminate|]. injection H as <- <-.
    destruct q as (rc0, s0). apply (bit_next _ _ _ _ 100 rc0 s0); auto.
Qed.

Lemma after_case n cf p (P : bst -> Prop) : match after n cf p with Ok (_, s) => P s | _ => False end ->
  exists rc s, bit_reached cf never 0 p rc s /\ P s.
Proof.
  destruct (after n cf p) as [(rc, s)| |] eqn:E; [|intros []..]. intro H. exists rc, s. split; [apply (after_reached n); auto|auto].
Qed.

(** ** C73: scores *)

Theorem C73_scores p cf clk r rc s : wf p -> fits64 p -> bit_reached cf clk r p rc s -> set_scores p s.
Proof. exact (fun W F => bit_scores p W F cf clk r rc s). Qed.
Print Assumptions C73_scores.

Example C73_reached : exists rc s, bit_reached scored never 0 p_unsat rc s /\
  length (bcl s) = 19%nat /\ SFcompare (bsc s 1 0) (bsc s 2 0) = Some Lt.
Proof. apply (after_case 4). vm_compute. auto. Qed.

(** ** C74: choices

    By score, also with restarts and several clauses about one variable only. *)

Theorem C74_score_choice p cf clk r s l : wf p -> fits64 p -> bvsids cf = true -> bit_decision_at cf clk r p s l ->
  set_scores p s /\ score_choice p s l.
Proof. exact (fun W F => bit_score_choice p W F cf clk r s l). Qed.
Print Assumptions C74_score_choice.

Theorem C74_watch_choice p cf clk r s l : wf p -> fits64 p -> lone p -> blen cf = true -> r <= 0 -> bvsids cf = false ->
  bit_decision_at cf clk r p s l -> watch_choice s l.
Proof. exact (fun W F LO LE R => bit_watch_choice p W F LO cf clk r LE R s l). Qed.
Print Assumptions C74_watch_choice.

(** The part of an iteration before the choice, for the examples. *)
Definition choosing (n : nat) (cf : bcfg) (p : problem) : outcome (bst * blit) :=
  let* q := after n cf p in
  let s0 := set_btick (snd q) (S (btick (snd q))) in
  if bconf s0 && (blevel s0 =? 0) then OutOfFuel
  else
    let* q1 := if bconf s0 then bconflict 100 cf 0 (fst q) s0 else Ok (s0, fst q) in
    let* s := match bulist (fst q1) with [] => Ok (fst q1) | _ => bprop 100 (fst q1) end in
    if bconf s then OutOfFuel else let* x := bchoose cf s in Ok (s, snd x).
Lemma choosing_decision n cf p s l : choosing n cf p = Ok (s, l) -> bit_decision_at cf never 0 p s l.
Proof.
  unfold choosing. intro H. apply Base.bind_ok in H. destruct H as ((rc0, s0) & E & H). cbn [fst snd] in H.
  set (s0' := set_btick s0 (S (btick s0))) in *.
  destruct (bconf s0' && (blevel s0' =? 0)) eqn:EB; [discriminate|].
  apply Base.bind_ok in H. destruct H as ((s1, rc) & E1 & H). cbn [fst] in H.
  apply Base.bind_ok in H. destruct H as (s' & E2 & H). destruct (bconf s') eqn:CF; [discriminate|].
  apply Base.bind_ok in H. destruct H as ((s2, l') & E3 & H). injection H as <- <-.
  exists 100%nat, rc0, s0, rc, s1, s2. split; [apply (after_reached n); auto|]. split; [auto|].
  split; [|split; [auto|split; auto]]. fold s0'. cbv zeta. split; [|auto].
  intros E4 E5. rewrite E4, E5 in EB. discriminate.
Qed.

Lemma choosing_case n cf p (P : bst -> blit -> Prop) : match choosing n cf p with Ok (s, l) => P s l | _ => False end ->
  exists s l, bit_decision_at cf never 0 p s l /\ P s l.
Proof.
  destruct (choosing n cf p) as [(s, l)| |] eqn:E; [|intros []..]. intro H. exists s, l. split; [apply (choosing_decision n); auto|auto].
Qed.

Example C74_by_score : exists s l, bit_decision_at scored never 0 p_unsat s l /\ l = (2, 1) /\ blevel s = 1.
Proof. apply (choosing_case 5). vm_compute. auto. Qed.
Example C74_by_watch : exists s l, bit_decision_at plain never 0 p_unsat s l /\ l = (2, 6) /\ blevel s = 1.
Proof. apply (choosing_case 1). vm_compute. auto. Qed.

(** ** C75: conflicts *)

Theorem C75_conflict p cf clk r rc s : wf p -> fits64 p -> lone p -> blen cf = true -> r <= 0 ->
  bit_conflict_at cf clk r p rc s ->
  exists N s' c0 c, (forall fuel, (N <= fuel)%nat -> bconflict fuel cf r rc s = Ok (s', rc)) /\
    nth_error (bcl s) (bcc s) = Some c0 /\ (forall l, In l c0 -> set_false s l) /\
    set_learns s c0 c /\ set_drives p s s' c.
Proof. exact (fun W F LO LE R => bit_learns p W F LO cf clk r LE R rc s). Qed.
Print Assumptions C75_conflict.

Theorem C75_unique s c0 c c' : set_learns s c0 c -> set_learns s c0 c' -> c = c'.
Proof. exact (fun H H' => learns_unique s c0 c H c' H'). Qed.
Print Assumptions C75_unique.

(** A conflict with several resolution steps. *)
Example C75_example : exists rc s, bit_conflict_at plain never 0 p_unsat rc s /\
  blevel s = 3 /\ nth_error (bcl s) (bcc s) = Some [(2, 5); (3, 5)] /\
  match bconflict 100 plain 0 rc s with
  | Ok (s', _) => bcl s' = bcl s ++ [[(3, 1); (1, 1); (2, 1)]] /\ blevel s' = 2
  | _ => False
  end.
Proof.
  assert (G : exists rc s, bit_reached plain never 0 p_unsat rc s /\ bconf s = true /\ blevel s = 3 /\
    nth_error (bcl s) (bcc s) = Some [(2, 5); (3, 5)] /\
    match bconflict 100 plain 0 0 (set_btick s (S (btick s))) with
    | Ok (s', _) => bcl s' = bcl s ++ [[(3, 1); (1, 1); (2, 1)]] /\ blevel s' = 2
    | _ => False
    end /\ True) by (apply (after_case 6); vm_compute; repeat split; auto).
  destruct G as (rc & s & R & CF & LV & EC & EX & _). assert (rc = 0) as ->.
  { apply (reached_inv p_unsat (wf_dec p_unsat eq_refl) p_unsat_fits (loneb_ok p_unsat eq_refl) plain never 0 eq_refl (Z.le_refl 0) rc s R). }
  exists 0, (set_btick s (S (btick s))). split; [|split; [exact LV|split; [exact EC|exact EX]]].
  exists s. split; [auto|]. split; [auto|]. split; [auto|]. split; [lia|auto].
Qed.
