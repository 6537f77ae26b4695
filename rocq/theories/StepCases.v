(** * Concrete executions of the search, for the examples

    Nothing here is used by a theorem: the functions compute the loop heads, conflicts and
    decisions of a run, so that an example can exhibit one. *)

From Verif Require Import Spec Outcome State ModelCounter ModelHeur ModelLearn ModelWatch
  ModelSearch ModelBuild Nc Wl Steps Cases.

Section Cases.
Variables (c : cfg) (clk : nat -> bool) (r : Z) (p : problem).

Fixpoint nc_at (k : nat) : option (Z * state) :=
  match k with
  | O => match build c (items_of p) with Ok s => Some (r, s) | _ => None end
  | S k => match nc_at k with
           | Some (rc, s) => match nc_iter 100 c clk r rc s with Ok (inr x) => Some x | _ => None end
           | None => None
           end
  end.

Lemma nc_at_reached : forall k rc s, nc_at k = Some (rc, s) -> nc_reached c clk r p rc s.
Proof.
  induction k as [|k IH]; simpl; intros rc s E.
  - destruct (build c (items_of p)) eqn:B; try discriminate. injection E as <- <-. apply nr_start; auto.
  - destruct (nc_at k) as [(rc0, s0)|]; [|discriminate].
    destruct (nc_iter 100 c clk r rc0 s0) as [[x|(rc1, s1)]|u|] eqn:I; try discriminate. injection E as <- <-.
    apply (nr_step c clk r p 100 rc0 s0); auto.
Qed.

Definition nc_conflict_number (k : nat) : option (Z * state * Z * state) :=
  match nc_at k with
  | Some (rc, s0) =>
      let (late, s) := check_time clk s0 in
      if late then None
      else if conflict s && negb (level s =? 0) then
        match nc_conflict 100 c r rc s with Ok (s', rc') => Some (rc, s, rc', s') | _ => None end
      else None
  | None => None
  end.

Lemma nc_conflict_found k rc s rc' s' :
  nc_conflict_number k = Some (rc, s, rc', s') -> nc_conflict_at c clk r p rc s rc' s'.
Proof.
  unfold nc_conflict_number. destruct (nc_at k) as [(rc0, s0)|] eqn:A; [|discriminate].
  destruct (check_time clk s0) as ([|], s1) eqn:T; [discriminate|].
  destruct (conflict s1) eqn:Cf; [|discriminate]. destruct (Z.eqb_spec (level s1) 0) as [L|L]; [discriminate|].
  simpl. destruct (nc_conflict 100 c r rc0 s1) as [(s2, rc2)|u|] eqn:N; try discriminate.
  intro E. injection E as <- <- <- <-. exists s0, 100%nat. repeat split; auto. eapply nc_at_reached; eauto.
Qed.

Definition nc_decision_number (k : nat) : option (state * lit) :=
  match nc_at k with
  | Some (rc, s0) =>
      let (late, s1) := check_time clk s0 in
      if late then None
      else if conflict s1 && (level s1 =? 0) then None
      else match nc_front 100 c r rc s1 with
           | Ok (s, _) => if conflict s then None
                          else match choose_nc c s with Ok (_, l) => Some (s, l) | _ => None end
           | _ => None
           end
  | None => None
  end.

Lemma nc_decision_found k s l : nc_decision_number k = Some (s, l) -> nc_decision_at c clk r p s l.
Proof.
  unfold nc_decision_number. destruct (nc_at k) as [(rc0, s0)|] eqn:A; [|discriminate].
  destruct (check_time clk s0) as ([|], s1) eqn:T; [discriminate|].
  destruct (conflict s1 && (level s1 =? 0)) eqn:Q; [discriminate|].
  destruct (nc_front 100 c r rc0 s1) as [(s2, rc2)|u|] eqn:N; try discriminate.
  destruct (conflict s2) eqn:Cf; [discriminate|].
  destruct (choose_nc c s2) as [(s3, l3)|u|] eqn:Ch; try discriminate.
  intro E. injection E as <- <-. exists s0, s1, 100%nat, rc0, rc2, s3. repeat split; auto. eapply nc_at_reached; eauto.
Qed.

Fixpoint wl_at (k : nat) : option (Z * state) :=
  match k with
  | O => match build c (items_of p) with Ok s => Some (r, s) | _ => None end
  | S k => match wl_at k with
           | Some (rc, s) => match wl_iter 100 c clk r rc s with Ok (inr x) => Some x | _ => None end
           | None => None
           end
  end.

Lemma wl_at_reached : forall k rc s, wl_at k = Some (rc, s) -> wl_reached c clk r p rc s.
Proof.
  induction k as [|k IH]; simpl; intros rc s E.
  - destruct (build c (items_of p)) eqn:B; try discriminate. injection E as <- <-. apply wr_start; auto.
  - destruct (wl_at k) as [(rc0, s0)|]; [|discriminate].
    destruct (wl_iter 100 c clk r rc0 s0) as [[x|(rc1, s1)]|u|] eqn:I; try discriminate. injection E as <- <-.
    apply (wr_step c clk r p 100 rc0 s0); auto.
Qed.

Definition wl_conflict_number (k : nat) : option (Z * state * Z * state) :=
  match wl_at k with
  | Some (rc, s0) =>
      let (late, s) := check_time clk s0 in
      if late then None
      else if conflict s && negb (level s =? 0) then
        match wl_conflict 100 c r rc s with Ok (s', rc') => Some (rc, s, rc', s') | _ => None end
      else None
  | None => None
  end.

Lemma wl_conflict_found k rc s rc' s' :
  wl_conflict_number k = Some (rc, s, rc', s') -> wl_conflict_at c clk r p rc s rc' s'.
Proof.
  unfold wl_conflict_number. destruct (wl_at k) as [(rc0, s0)|] eqn:A; [|discriminate].
  destruct (check_time clk s0) as ([|], s1) eqn:T; [discriminate|].
  destruct (conflict s1) eqn:Cf; [|discriminate]. destruct (Z.eqb_spec (level s1) 0) as [L|L]; [discriminate|].
  simpl. destruct (wl_conflict 100 c r rc0 s1) as [(s2, rc2)|u|] eqn:N; try discriminate.
  intro E. injection E as <- <- <- <-. exists s0, 100%nat. repeat split; auto. eapply wl_at_reached; eauto.
Qed.

Definition wl_decision_number (k : nat) : option (state * lit) :=
  match wl_at k with
  | Some (rc, s0) =>
      let (late, s1) := check_time clk s0 in
      if late then None
      else if conflict s1 && (level s1 =? 0) then None
      else match wl_front 100 c r rc s1 with
           | Ok (s, _) => if conflict s then None
                          else match choose_wl c s with Ok (_, l) => Some (s, l) | _ => None end
           | _ => None
           end
  | None => None
  end.

Lemma wl_decision_found k s l : wl_decision_number k = Some (s, l) -> wl_decision_at c clk r p s l.
Proof.
  unfold wl_decision_number. destruct (wl_at k) as [(rc0, s0)|] eqn:A; [|discriminate].
  destruct (check_time clk s0) as ([|], s1) eqn:T; [discriminate|].
  destruct (conflict s1 && (level s1 =? 0)) eqn:Q; [discriminate|].
  destruct (wl_front 100 c r rc0 s1) as [(s2, rc2)|u|] eqn:N; try discriminate.
  destruct (conflict s2) eqn:Cf; [discriminate|].
  destruct (choose_wl c s2) as [(s3, l3)|u|] eqn:Ch; try discriminate.
  intro E. injection E as <- <-. exists s0, s1, 100%nat, rc0, rc2, s3. repeat split; auto. eapply wl_at_reached; eauto.
Qed.

(** The calls of ChronoBacktrack along the first branches. *)
Fixpoint ch_at (k : nat) : option (state * Z) :=
  match k with
  | O => match build c (items_of p) with Ok s => Some (s, 0) | _ => None end
  | S k => match ch_at k with
           | Some (s, lev) =>
               match ch_front 100 c clk s lev with
               | Ok (false, s1) =>
                   if conflict s1 then None
                   else match choose_ch c s1 with
                        | Ok (s2, l) => if lvar l =? -1 then None
                                        else match ch_left c s2 l with Ok s3 => Some (s3, level s3) | _ => None end
                        | _ => None
                        end
               | _ => None
               end
           | None => None
           end
  end.

Lemma ch_at_called : forall k s lev, ch_at k = Some (s, lev) -> ch_called c clk p s lev.
Proof.
  induction k as [|k IH]; simpl; intros s lev E.
  - destruct (build c (items_of p)) eqn:B; try discriminate. injection E as <- <-. apply cc_root; auto.
  - destruct (ch_at k) as [(s0, lev0)|]; [|discriminate].
    destruct (ch_front 100 c clk s0 lev0) as [([|], s1)|u|] eqn:F; try discriminate.
    destruct (conflict s1) eqn:Cf; [discriminate|].
    destruct (choose_ch c s1) as [(s2, l)|u|] eqn:Ch; try discriminate.
    destruct (Z.eqb_spec (lvar l) (-1)) as [L|L]; [discriminate|].
    destruct (ch_left c s2 l) as [s3|u|] eqn:Le; try discriminate. injection E as <- <-.
    apply (cc_left c clk p 100 s0 lev0 s1 s2 l s3); auto.
Qed.

Definition ch_conflict_number (k : nat) : option (state * state) :=
  match ch_at k with
  | Some (s0, lev) =>
      match ch_front 100 c clk s0 lev with
      | Ok (false, s) => if conflict s then match ch_conflict c s with Ok s' => Some (s, s') | _ => None end else None
      | _ => None
      end
  | None => None
  end.

Lemma ch_conflict_found k s s' : ch_conflict_number k = Some (s, s') -> ch_conflict_at c clk p s s'.
Proof.
  unfold ch_conflict_number. destruct (ch_at k) as [(s0, lev)|] eqn:A; [|discriminate].
  destruct (ch_front 100 c clk s0 lev) as [([|], s1)|u|] eqn:F; try discriminate.
  destruct (conflict s1) eqn:Cf; [|discriminate].
  destruct (ch_conflict c s1) as [s2|u|] eqn:Cc; try discriminate.
  intro E. injection E as <- <-. exists 100%nat, s0, lev. repeat split; auto. eapply ch_at_called; eauto.
Qed.

Definition ch_decision_number (k : nat) : option (state * lit) :=
  match ch_at k with
  | Some (s0, lev) =>
      match ch_front 100 c clk s0 lev with
      | Ok (false, s) => if conflict s then None else match choose_ch c s with Ok (_, l) => Some (s, l) | _ => None end
      | _ => None
      end
  | None => None
  end.

Lemma ch_decision_found k s l : ch_decision_number k = Some (s, l) -> ch_decision_at c clk p s l.
Proof.
  unfold ch_decision_number. destruct (ch_at k) as [(s0, lev)|] eqn:A; [|discriminate].
  destruct (ch_front 100 c clk s0 lev) as [([|], s1)|u|] eqn:F; try discriminate.
  destruct (conflict s1) eqn:Cf; [discriminate|].
  destruct (choose_ch c s1) as [(s2, l2)|u|] eqn:Ch; try discriminate.
  intro E. injection E as <- <-. exists 100%nat, s0, lev, s2. repeat split; auto. eapply ch_at_called; eauto.
Qed.

End Cases.

(** What the examples show of a conflict: the levels before and after, the new clauses, and the
    number of assigned literals on the stack before and after. *)
Definition show_conflict (x : Z * state * Z * state) : Z * Z * list clause * nat * nat :=
  match x with
  | (_, s, _, s') => (level s, level s', skipn (length (cl s)) (cl s'), length (DST (tr s)), length (DST (tr s')))
  end.
Definition show_ch (x : state * state) : Z * Z * nat * nat :=
  match x with (s, s') => (level s, level s', length (DST (tr s)), length (DST (tr s'))) end.
Definition show_decision (x : state * lit) : Z * lit := match x with (s, l) => (level s, l) end.
