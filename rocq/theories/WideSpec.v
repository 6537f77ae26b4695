(** * Problems with domains of fewer than two values

    The solver treats a variable that is declared with one value, or with none, as if it had two:
    [v!=0] is a way out of the domain.  [widen] spells this out. *)

From Verif Require Import Spec.

(** Like [wf], but for domains of any size. *)
Definition usable (p : problem) : Prop :=
  (forall d, In d (doms p) -> 0 <= d) /\
  (forall c, In c (clauses p) -> c <> [] /\ forall l, In l c -> wf_lit p l).

(** The same clauses; every domain has at least two values. *)
Definition widen (p : problem) : problem := mkProblem (map (Z.max 2) (doms p)) (clauses p).

Lemma wf_usable p : wf p -> usable p.
Proof. intros (H & K). split; auto. intros d I. apply H in I. lia. Qed.
Coercion wf_usable : wf >-> usable.
#[global] Hint Resolve wf_usable : core.

Lemma widen_wf p : wf p -> widen p = p.
Proof.
  intros (H & _). destruct p as [ds cs]. unfold widen. cbn [doms clauses] in *. f_equal.
  rewrite <- (map_id ds) at 2. apply map_ext_in. intros d I. apply H in I. lia.
Qed.

Lemma wf_two p v : wf p -> 1 <= v <= nvars p -> 2 <= domsize p v.
Proof.
  intros (H & _) V. unfold domsize, nvars in *. destruct (1 <=? v) eqn:E; [|lia]. apply H, nth_In. lia.
Qed.

Lemma nvars_widen p : nvars (widen p) = nvars p.
Proof. unfold nvars, widen. cbn [doms]. rewrite map_length. reflexivity. Qed.

Lemma domsize_widen p v : 1 <= v <= nvars p -> domsize (widen p) v = Z.max 2 (domsize p v).
Proof.
  intro V. unfold domsize, widen, nvars in *. cbn [doms]. destruct (1 <=? v) eqn:E; [|lia].
  rewrite (nth_indep _ 0 (Z.max 2 0)) by (rewrite map_length; lia). apply map_nth.
Qed.

Lemma usable_widen p : usable p -> wf (widen p).
Proof.
  intros (H & K). split.
  - cbn [widen doms]. intros d I. apply in_map_iff in I. destruct I as (e & <- & _). lia.
  - intros c I. destruct (K c I) as (N & W). split; auto. intros l L. destruct (W l L) as (V & D).
    split; [rewrite nvars_widen; auto|]. rewrite domsize_widen by auto. lia.
Qed.
