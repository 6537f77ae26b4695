(** * Assigning atoms with watched literals *)

From Coq Require Import Floats.SpecFloat.
From Verif Require Import Spec Outcome State ModelCounter ModelHeur ModelLearn ModelWatch
  Base Trail Reduce.

(** ** Invariants *)

(** Structure of the watches and watch lists. *)
Record WS (s : state) : Prop := mkWS {
  ws_ok : cls_ok (tr s) (cl s);
  ws_nd : forall C, In C (cl s) -> NoDup C;
  ws_w0 : forall n C, nth_error (cl s) n = Some C -> In (w0 s n) C;
  ws_w1 : forall n C, nth_error (cl s) n = Some C -> (2 <= length C)%nat ->
    In (w1 s n) C /\ w1 s n <> w0 s n;
  ws_w1n : forall n C, nth_error (cl s) n = Some C -> length C = 1%nat -> w1 s n = nolit;
  ws_occ : forall n C l, nth_error (cl s) n = Some C ->
    nocc n (wls s l) = ((if lit_eqb l (w0 s n) then 1 else 0) +
      (if Nat.ltb 1 (length C) && lit_eqb l (w1 s n) then 1 else 0))%nat;
  ws_id : forall l n, In n (wls s l) -> (n < length (cl s))%nat
}.

(** [w] and [o] are the two watched literals of clause [n]. *)
Definition pair (s : state) (n : nat) (C : clause) (w o : lit) : Prop :=
  (2 <= length C)%nat /\ (w = w0 s n /\ o = w1 s n \/ w = w1 s n /\ o = w0 s n).

(** All literals but [o] are false, none of them falsified later than [w]. *)
Definition rest_false (t : trail) (C : clause) (o w : lit) : Prop :=
  forall x, In x C -> x <> o -> lit_false t x = true /\ lidx t x <= lidx t w.

(** With respect to the completed levels. *)
Definition old (s : state) (n : nat) (C : clause) : Prop :=
  (length C = 1%nat -> 0 < level s -> lit_true (tr s) (w0 s n) = true /\ llev (tr s) (w0 s n) = 0) /\
  forall w o, pair s n C w o -> lit_false (tr s) w = true -> llev (tr s) w < level s ->
    lit_true (tr s) o = true /\ llev (tr s) o <= llev (tr s) w.

(** At the current level, while there is no conflict; [xs]: clauses taken from UNITLIST that
    are being worked on. *)
Definition good (xs : list nat) (s : state) (n : nat) (C : clause) : Prop :=
  (length C = 1%nat ->
     lit_true (tr s) (w0 s n) = true /\ llev (tr s) (w0 s n) = 0 \/
     lit_un (tr s) (w0 s n) = true /\ level s = 0 /\ (In n (ulist s) \/ In n xs)) /\
  forall w o, pair s n C w o -> lit_false (tr s) w = true ->
    lit_true (tr s) o = true /\ llev (tr s) o <= llev (tr s) w \/
    llev (tr s) w = level s /\ lit_un (tr s) o = true /\ (In n (ulist s) \/ In n xs) /\
    rest_false (tr s) C o w.

(** A clause on UNITLIST. *)
Definition pendu (s : state) (n : nat) (C : clause) : Prop :=
  (length C = 1%nat -> level s = 0) /\
  ((2 <= length C)%nat -> exists w o, pair s n C w o /\ lit_false (tr s) w = true /\
     llev (tr s) w = level s /\ rest_false (tr s) C o w).

(** The conflicting clause. *)
Definition confok (s : state) (n : nat) (C : clause) : Prop :=
  (forall x, In x C -> lit_false (tr s) x = true) /\
  (forall x, In x C -> lidx (tr s) x <= lidx (tr s) (w0 s n)) /\
  ((2 <= length C)%nat -> forall x, In x C -> x <> w0 s n -> lidx (tr s) x <= lidx (tr s) (w1 s n)).

Record JW (xs : list nat) (s : state) : Prop := mkJW {
  jw_ws : WS s;
  jw_old : forall n C, nth_error (cl s) n = Some C -> old s n C;
  jw_good : conflict s = false -> forall n C, nth_error (cl s) n = Some C -> good xs s n C;
  jw_pend : conflict s = false -> forall n, In n (ulist s) ->
    exists C, nth_error (cl s) n = Some C /\ pendu s n C;
  jw_conf : conflict s = true -> exists C, nth_error (cl s) (confcl s) = Some C /\ confok s (confcl s) C
}.

(** A clause watching the literal [l] just falsified that was not visited yet. *)
Definition raw (s : state) (n : nat) (C : clause) (l : lit) : Prop :=
  (w0 s n = l \/ (2 <= length C)%nat /\ w1 s n = l) /\
  (forall o, pair s n C l o -> lit_false (tr s) o = true ->
     llev (tr s) o = level s /\ rest_false (tr s) C l o).

(** ** Locality *)

Record same_at (s s' : state) (n : nat) : Prop := mkSame {
  sa_tr : tr s' = tr s; sa_lev : level s' = level s;
  sa_w0 : w0 s' n = w0 s n; sa_w1 : w1 s' n = w1 s n;
  sa_ul : In n (ulist s) -> In n (ulist s')
}.

Lemma pair_same s s' n C w o : same_at s s' n -> pair s' n C w o <-> pair s n C w o.
Proof. intros [_ _ E0 E1 _]. unfold pair. rewrite E0, E1. tauto. Qed.

Lemma old_same s s' n C : same_at s s' n -> old s n C -> old s' n C.
Proof.
  intros E (O1 & O2). split.
  - rewrite (sa_tr _ _ _ E), (sa_lev _ _ _ E), (sa_w0 _ _ _ E). auto.
  - intros w o P. apply (pair_same s) in P; auto. rewrite (sa_tr _ _ _ E), (sa_lev _ _ _ E). auto.
Qed.

Lemma good_same xs s s' n C : same_at s s' n -> good xs s n C -> good xs s' n C.
Proof.
  intros E (O1 & O2). pose proof (sa_ul _ _ _ E) as UL. split.
  - rewrite (sa_tr _ _ _ E), (sa_lev _ _ _ E), (sa_w0 _ _ _ E). intro L.
    destruct (O1 L) as [|(X & Y & Z)]; auto. right. tauto.
  - intros w o P. apply (pair_same s) in P; auto. rewrite (sa_tr _ _ _ E), (sa_lev _ _ _ E).
    intro F. destruct (O2 w o P F) as [|(X & Y & Z & T)]; auto. right. tauto.
Qed.

Lemma pendu_same s s' n C : same_at s s' n -> pendu s n C -> pendu s' n C.
Proof.
  intros E (O1 & O2). split.
  - rewrite (sa_lev _ _ _ E). auto.
  - intro L. destruct (O2 L) as (w & o & P & X). exists w, o. split; [apply (pair_same s); auto|].
    rewrite (sa_tr _ _ _ E), (sa_lev _ _ _ E). auto.
Qed.

Lemma confok_same s s' n C : same_at s s' n -> confok s n C -> confok s' n C.
Proof.
  intros E. unfold confok. rewrite (sa_tr _ _ _ E), (sa_w0 _ _ _ E), (sa_w1 _ _ _ E). auto.
Qed.

Lemma raw_same s s' n C l : same_at s s' n -> raw s n C l -> raw s' n C l.
Proof.
  intros E (R1 & R2). split.
  - rewrite (sa_w0 _ _ _ E), (sa_w1 _ _ _ E). auto.
  - intros o P. apply (pair_same s) in P; auto. rewrite (sa_tr _ _ _ E), (sa_lev _ _ _ E). auto.
Qed.

Lemma sat_ok t l : DOM t 0 = 0 -> lrange t l ->
  sat t l = Ok (if lit_true t l then SatTrue else if lit_un t l then SatUn else SatFalse).
Proof. intros D R. unfold sat. rewrite chk_ok by auto. reflexivity. Qed.

Lemma find_repl_ok t w C : DOM t 0 = 0 -> (forall l, In l C -> lrange t l) ->
  exists o, find_repl t w C = Ok o /\
    match o with
    | Some x => In x C /\ lit_false t x = false /\ x <> w
    | None => forall x, In x C -> x <> w -> lit_false t x = true
    end.
Proof.
  intros D0. induction C as [|l C IH]; intro R.
  - exists None. split; auto.
  - cbn [find_repl]. rewrite sat_ok by (auto; apply R; left; auto). cbn [bind].
    destruct IH as (o & E & P). { intros; apply R; right; auto. }
    destruct (lit_cases t l) as [(T & U & F)|[(T & U & F)|(T & U & F)]]; rewrite T, ?U.
    1-2: destruct (lit_eqb_spec l w) as [->|N];
      [exists o; split; auto; destruct o; [simpl; tauto|intros x [<-|Hx] Nx; [congruence|auto]]
      |exists (Some l); split; auto; simpl; auto].
    exists o. split; auto. destruct o; [simpl; tauto|]. intros x [<-|Hx] Nx; auto.
Qed.

Lemma remove_one_ok n l : In n l ->
  exists l', remove_one n l = Some l' /\ (forall m, nocc m l = ((if Nat.eqb m n then 1 else 0) + nocc m l')%nat) /\
    (forall m, In m l' -> In m l).
Proof.
  induction l as [|m l IH]; intro H; [destruct H|]. cbn [remove_one].
  destruct (Nat.eqb_spec m n) as [->|N].
  - exists l. split; auto. split; [|intros; right; auto]. intro m. unfold nocc. rewrite countb_cons. auto.
  - destruct H as [->|H]; [congruence|]. destruct (IH H) as (l' & E & P & Q). rewrite E. simpl.
    exists (m :: l'). split; auto. split.
    + intro k. specialize (P k). unfold nocc in *. rewrite !countb_cons. lia.
    + intros k [<-|Hk]; [left|right]; auto.
Qed.

Lemma WS_two s n C : WS s -> nth_error (cl s) n = Some C -> length C <> 1%nat -> (2 <= length C)%nat.
Proof.
  intros H Hn L. pose proof (ws_w0 _ H n C Hn). destruct C as [|a [|b C]]; simpl in *; try tauto; lia.
Qed.

Lemma WS_range s n C x : WS s -> nth_error (cl s) n = Some C -> In x C -> lrange (tr s) x.
Proof. intros H Hn Hx. apply (ws_ok _ H C); auto. eapply nth_error_In; eauto. Qed.

Lemma pair_in s n C w o : WS s -> nth_error (cl s) n = Some C -> pair s n C w o ->
  In w C /\ In o C /\ w <> o.
Proof.
  intros H Hn (L & P). pose proof (ws_w0 _ H n C Hn). destruct (ws_w1 _ H n C Hn L).
  destruct P as [(-> & ->)|(-> & ->)]; auto.
Qed.

Lemma pair_sym s n C w o : pair s n C w o -> pair s n C o w.
Proof. intros (L & P). split; auto. tauto. Qed.

Lemma pair_fun s n C w o o' : WS s -> nth_error (cl s) n = Some C -> pair s n C w o -> pair s n C w o' -> o = o'.
Proof.
  intros H Hn P P'. pose proof (pair_in _ _ _ _ _ H Hn P) as (_ & _ & N).
  pose proof (pair_in _ _ _ _ _ H Hn P') as (_ & _ & N').
  destruct P as (L & [(A & B)|(A & B)]), P' as (L' & [(A' & B')|(A' & B')]); congruence.
Qed.

(** ** One step of watchedFalsifyLiteral *)

(** Fields a step leaves alone. *)
Record wfr (s s' : state) : Prop := mkWfr {
  wf_tr : tr s' = tr s;
  wf_fr : fr s s';
  wf_ucl : uclause s' = uclause s;
  wf_ent : entails s' = entails s
}.

Lemma wfr_refl s : wfr s s.
Proof. split; auto. apply fr_refl. Qed.
Lemma wfr_trans s1 s2 s3 : wfr s1 s2 -> wfr s2 s3 -> wfr s1 s3.
Proof. intros [] []; split; try congruence. eapply fr_trans; eauto. Qed.

(** State during the traversal; [ns] are the nodes still to be visited. *)
Record KW (xs : list nat) (l : lit) (ns : list nat) (s : state) : Prop := mkKW {
  kw_ws : WS s;
  kw_l : lrange (tr s) l;
  kw_false : lit_false (tr s) l = true;
  kw_lev : llev (tr s) l = level s;
  kw_bnd : forall n C x, nth_error (cl s) n = Some C -> In x C -> lit_un (tr s) x = false ->
    0 <= llev (tr s) x <= level s;
  kw_max : forall n C x, nth_error (cl s) n = Some C -> In x C -> lit_false (tr s) x = true ->
    lidx (tr s) x <= lidx (tr s) l;
  kw_old : forall n C, nth_error (cl s) n = Some C -> old s n C;
  kw_in : conflict s = false -> forall n, In n ns -> In n (wls s l);
  kw_raw : conflict s = false -> forall n C, nth_error (cl s) n = Some C -> In n ns -> raw s n C l;
  kw_good : conflict s = false -> forall n C, nth_error (cl s) n = Some C -> ~ In n ns -> good xs s n C;
  kw_pend : conflict s = false -> forall n, In n (ulist s) ->
    exists C, nth_error (cl s) n = Some C /\ pendu s n C;
  kw_conf : conflict s = true -> exists C, nth_error (cl s) (confcl s) = Some C /\ confok s (confcl s) C
}.

Definition swap_same s n m : m <> n -> same_at s (swap_w s n) m.
Proof. intro N. split; auto; unfold swap_w; simpl; rewrite updn_other; auto. Qed.

Lemma swap_pair s n C w o : pair (swap_w s n) n C w o <-> pair s n C w o.
Proof. unfold pair, swap_w; simpl. rewrite !updn_same. tauto. Qed.

Lemma swap_WS s n C : WS s -> nth_error (cl s) n = Some C -> (2 <= length C)%nat -> WS (swap_w s n).
Proof.
  intros H Hn L. destruct (ws_w1 _ H n C Hn L) as (I1 & N1). pose proof (ws_w0 _ H n C Hn) as I0.
  assert (X : forall m D, nth_error (cl s) m = Some D -> m = n /\ D = C \/
     m <> n /\ w0 (swap_w s n) m = w0 s m /\ w1 (swap_w s n) m = w1 s m).
  { intros m D Hm. destruct (Nat.eq_dec m n) as [->|N]; [left; split; congruence|right].
    split; auto. unfold swap_w; simpl. rewrite !updn_other by auto. auto. }
  assert (Y : w0 (swap_w s n) n = w1 s n /\ w1 (swap_w s n) n = w0 s n).
  { unfold swap_w; simpl. rewrite !updn_same. auto. }
  destruct Y as (Y0 & Y1).
  split; try apply H.
  - intros m D Hm. destruct (X m D Hm) as [(-> & ->)|(N & E0 & E1)]; [rewrite Y0; auto|].
    rewrite E0. apply (ws_w0 _ H); auto.
  - intros m D Hm LD. destruct (X m D Hm) as [(-> & ->)|(N & E0 & E1)]; [rewrite Y0, Y1; auto|].
    rewrite E0, E1. apply (ws_w1 _ H); auto.
  - intros m D Hm LD. destruct (X m D Hm) as [(-> & ->)|(N & E0 & E1)]; [lia|].
    rewrite E1. eapply ws_w1n; eauto.
  - intros m D x Hm. change (wls (swap_w s n)) with (wls s). rewrite (ws_occ _ H m D x Hm).
    destruct (X m D Hm) as [(-> & ->)|(N & E0 & E1)]; [rewrite Y0, Y1|rewrite E0, E1; auto].
    destruct (Nat.ltb_spec 1 (length C)); [|lia]. simpl. lia.
Qed.

Lemma wstep_ok xs l n ns s :
  DOM (tr s) 0 = 0 -> KW xs l (n :: ns) s -> ~ In n ns ->
  exists s', wfalsify_step l s n = Ok s' /\ wfr s s' /\ KW xs l ns s'.
Proof.
  intros D0 H NI. unfold wfalsify_step. destruct (conflict s) eqn:Cf.
  { exists s. split; auto. split; [apply wfr_refl|]. destruct H. split; auto; congruence. }
  pose proof (kw_ws _ _ _ _ H) as HS.
  assert (In_ : In n (wls s l)) by (apply (kw_in _ _ _ _ H Cf); left; auto).
  destruct (lt_nth_error (cl s) n (ws_id _ HS l n In_)) as (C & HC).
  unfold getcl. rewrite HC. cbn [bind].
  assert (RG : forall x, In x C -> lrange (tr s) x) by (intros; eapply WS_range; eauto).
  pose proof (ws_w0 _ HS n C HC) as I0.
  destruct (kw_raw _ _ _ _ H Cf n C HC (or_introl eq_refl)) as (R1 & R2).
  assert (Fl := kw_false _ _ _ _ H).
  assert (Ll := kw_lev _ _ _ _ H).
  assert (MX := fun x => kw_max _ _ _ _ H n C x HC).
  assert (BD := fun x => kw_bnd _ _ _ _ H n C x HC).
  assert (FT : forall x, lit_true (tr s) x = true -> lit_false (tr s) x = true -> False).
  { intros x A B. destruct (lit_cases (tr s) x) as [X|[X|X]]; intuition congruence. }
  assert (UF : forall x, lit_un (tr s) x = true -> lit_false (tr s) x = true -> False).
  { intros x A B. destruct (lit_cases (tr s) x) as [X|[X|X]]; intuition congruence. }
  (* clauses other than n *)
  assert (OTHER : forall s', WS s' -> wfr s s' -> conflict s' = false ->
     (forall m, m <> n -> same_at s s' m) ->
     (forall m, m <> n -> In m (wls s l) -> In m (wls s' l)) ->
     (forall m, In m (ulist s') -> m = n \/ In m (ulist s)) ->
     old s' n C -> good xs s' n C -> (In n (ulist s') -> pendu s' n C) -> KW xs l ns s').
  { intros s' W' F' C' SA WI UI ON GN PN.
    assert (Ec : cl s' = cl s) by apply (wf_fr _ _ F').
    assert (Et := wf_tr _ _ F'). assert (El : level s' = level s) by apply (wf_fr _ _ F').
    split; auto; try congruence.
    - rewrite Et. apply H.
    - rewrite Et, Ec, El. apply (kw_bnd _ _ _ _ H).
    - rewrite Et, Ec. apply (kw_max _ _ _ _ H).
    - rewrite Ec. intros m D Hm. destruct (Nat.eq_dec m n) as [->|N]; [congruence|].
      apply (old_same s); auto. apply (kw_old _ _ _ _ H); auto.
    - intros _ m Hm. assert (m <> n) by congruence. apply WI; auto. apply (kw_in _ _ _ _ H Cf). right; auto.
    - rewrite Ec. intros _ m D Hm Hi. assert (m <> n) by congruence.
      apply (raw_same s); auto. apply (kw_raw _ _ _ _ H Cf); auto. right; auto.
    - rewrite Ec. intros _ m D Hm Hi. destruct (Nat.eq_dec m n) as [->|N]; [congruence|].
      apply (good_same xs s); auto. apply (kw_good _ _ _ _ H Cf); auto. intros [X|X]; auto.
    - rewrite Ec. intros _ m Hm. destruct (Nat.eq_dec m n) as [->|N]; [eauto|].
      destruct (UI m Hm) as [|Hm']; [congruence|].
      destruct (kw_pend _ _ _ _ H Cf m Hm') as (D & HD & P). exists D. split; auto.
      apply (pendu_same s); auto. }
  assert (PEND : In n (ulist s) -> pendu s n C).
  { intro Hi. destruct (kw_pend _ _ _ _ H Cf n Hi) as (D & HD & P). congruence. }
  (* the other watch is true *)
  assert (TRUE : forall o, pair s n C l o -> lit_true (tr s) o = true -> good xs s n C).
  { intros o P To. split; [destruct P; lia|]. intros w o' P' Fw.
    destruct (lit_eq_dec w l) as [->|N].
    - assert (o' = o) by (eapply pair_fun; eauto). subst o'. left. split; auto. rewrite Ll.
      apply BD; [eapply pair_in; eauto|]. apply lit_true_un; auto.
    - exfalso. assert (w = o); [|subst; eauto].
      destruct P as (_ & [(A & B)|(A & B)]), P' as (_ & [(A' & B')|(A' & B')]); congruence. }
  rewrite sat_ok by auto. cbn [bind].
  destruct (lit_true (tr s) (w0 s n)) eqn:T0.
  { exists s. split; auto. split; [apply wfr_refl|]. apply OTHER; auto using wfr_refl.
    - intros; split; auto.
    - apply (kw_old _ _ _ _ H); auto.
    - destruct R1 as [R1|(L2 & R1)]; [rewrite R1 in T0; exfalso; eauto|].
      apply (TRUE (w0 s n)); auto. split; auto. }
  assert (MID : exists s',
     (let* r2 := if Nat.ltb 1 (length C) then sat (tr s) (w1 s n) else Ok SatFalse in
      match r2 with
      | SatTrue => Ok (swap_w s n)
      | _ => let s := if lit_eqb (w1 s n) l then swap_w s n else s in swap_pointer s l n
      end) = Ok s' /\ wfr s s' /\ KW xs l ns s').
  2: { destruct MID as (s' & E & P). exists s'. split; auto. rewrite <- E.
       destruct (lit_un (tr s) (w0 s n)); auto. }
  destruct (Nat.ltb_spec 1 (length C)) as [L2|L1].
  2: { (* unit clause *)
    assert (LC : length C = 1%nat) by (destruct C; [destruct I0|simpl in *; lia]).
    cbn [bind]. rewrite (ws_w1n _ HS n C HC LC).
    destruct (lit_eqb_spec nolit l) as [E|_].
    { exfalso. pose proof (kw_l _ _ _ _ H) as R. rewrite <- E in R. destruct R as ((R & _) & _). simpl in R. lia. }
    cbv zeta. unfold swap_pointer, getcl. rewrite HC. cbn [bind].
    destruct (Nat.ltb_spec 1 (length C)); [lia|]. cbn [bind]. eexists. split; [reflexivity|].
    assert (WS (set_confcl (set_conflict s true) n)) by (destruct HS; split; auto).
    split; [split; auto; split; auto|]. split; simpl; auto; try congruence; try apply H.
    intros _. exists C. split; auto.
    destruct R1 as [R1|(L2 & _)]; [|lia].
    assert (A : forall x, In x C -> x = l).
    { destruct C as [|z [|z' r]]; try (simpl in LC; discriminate).
      intros x [<-|[]]. destruct I0 as [I0|[]]. congruence. }
    split; [intros x Hx; rewrite (A x Hx); auto|]. split; [intros x Hx; simpl; rewrite (A x Hx), R1; lia|].
    intro; lia. }
  destruct (ws_w1 _ HS n C HC L2) as (I1 & N1).
  rewrite sat_ok by auto. cbn [bind].
  destruct (lit_true (tr s) (w1 s n)) eqn:T1.
  { (* second watch true: exchange *)
    exists (swap_w s n). split; auto. split; [split; auto; split; auto|].
    assert (R0 : w0 s n = l) by (destruct R1 as [|(_ & R1)]; auto; rewrite R1 in T1; exfalso; eauto).
    assert (G : good xs s n C) by (apply (TRUE (w1 s n)); auto; split; auto).
    apply OTHER; auto.
    - eapply swap_WS; eauto.
    - split; auto; split; auto.
    - intros; apply swap_same; auto.
    - destruct (kw_old _ _ _ _ H n C HC) as (_ & O2). split; [lia|].
      intros w o P. apply (proj1 (swap_pair s n C w o)) in P. exact (O2 w o P).
    - destruct G as (_ & G2). split; [lia|].
      intros w o P. apply (proj1 (swap_pair s n C w o)) in P. exact (G2 w o P).
    - intro Hi. destruct (PEND Hi) as (_ & P2). split; [lia|]. intros _.
      destruct (P2 L2) as (w & o & P & X). exists w, o. split; [apply swap_pair; auto|exact X]. }
  (* neither watch is true: put l first *)
  assert (S1 : exists s1, s1 = (if lit_eqb (w1 s n) l then swap_w s n else s) /\
     WS s1 /\ w0 s1 n = l /\ (exists b, w1 s1 n = b /\ pair s n C l b) /\ wfr s s1 /\ conflict s1 = false /\
     (forall m, m <> n -> same_at s s1 m) /\ wls s1 = wls s /\ ulist s1 = ulist s /\
     confcl s1 = confcl s).
  { eexists. split; [reflexivity|]. destruct (lit_eqb_spec (w1 s n) l) as [E|N].
    - split; [eapply swap_WS; eauto|]. split; [unfold swap_w; simpl; rewrite updn_same; auto|].
      split; [exists (w0 s n); split; [unfold swap_w; simpl; apply updn_same|split; auto]|].
      split; [split; auto; split; auto|]. split; auto. split; [intros; apply swap_same; auto|auto].
    - split; auto. assert (w0 s n = l) by (destruct R1 as [|(_ & R1)]; auto; congruence).
      split; auto. split; [exists (w1 s n); split; auto; split; auto|].
      split; [apply wfr_refl|]. split; auto. split; [intros; split; auto|auto]. }
  destruct S1 as (s1 & ES & HS1 & E0 & (b & E1 & PB) & F1 & Cf1 & SA1 & WL1 & UL1 & _).
  destruct (pair_in _ _ _ _ _ HS HC PB) as (Il & Ib & Nlb).
  assert (Et1 := wf_tr _ _ F1). assert (Ec1 : cl s1 = cl s) by apply (wf_fr _ _ F1).
  assert (El1 : level s1 = level s) by apply (wf_fr _ _ F1).
  assert (P1 : forall w o, pair s1 n C w o <-> pair s n C w o).
  { intros w o. unfold pair. rewrite E0, E1. destruct PB as (_ & [(A & B)|(A & B)]); rewrite <- A, <- B; tauto. }
  assert (HC1 : nth_error (cl s1) n = Some C) by congruence.
  assert (O1 : old s n C) by (apply (kw_old _ _ _ _ H); auto).
  assert (SP : exists s', swap_pointer s1 l n = Ok s' /\ wfr s s' /\ KW xs l ns s').
  2: { destruct SP as (s' & E & P). exists s'. split; auto. rewrite <- E, ES.
       destruct (lit_un (tr s) (w1 s n)); auto. }
  unfold swap_pointer, getcl. rewrite HC1. cbn [bind]. cbv zeta. rewrite E0, E1.
  destruct (Nat.ltb_spec 1 (length C)); [|lia]. rewrite sat_ok; rewrite Et1; auto. cbn [bind].
  assert (Tb : lit_true (tr s) b = false).
  { destruct PB as (_ & [(A & B)|(A & B)]); congruence. }
  rewrite Tb.
  destruct (lit_un (tr s) b) eqn:Ub.
  - destruct (find_repl_ok (tr s) b C D0 RG) as (o & EF & PF). rewrite EF. cbn [bind].
    destruct o as [x|].
    + (* a replacement *)
      destruct PF as (Hx & Fx & Nx).
      assert (Nxl : x <> l) by congruence.
      unfold remove_record. rewrite Et1, chk_ok by (auto; apply H). cbn [bind].
      rewrite lit_eqb_refl. rewrite WL1.
      destruct (remove_one_ok n (wls s l) In_) as (ns' & ER & RC & RI). rewrite ER. cbn [bind].
      unfold add_record. simpl tr. rewrite Et1, chk_ok by auto. cbn [bind].
      eexists. split; [reflexivity|]. cbn [wls set_wls set_w0 w0].
      set (s2 := set_w0 _ _).
      assert (W2 : forall m, m <> n -> w0 s2 m = w0 s1 m) by (intros; apply updn_other; auto).
      assert (W2n : w0 s2 n = x) by apply updn_same.
      assert (L2x : forall y, wls s2 y = updl (updl (wls s) l ns') x (n :: wls s x) y).
      { intro y. unfold s2. simpl. unfold updl. destruct (lit_eqb y x); auto.
        destruct (lit_eqb_spec x l); [congruence|auto]. }
      assert (F2 : wfr s s2) by (destruct F1 as [a1 [] a3 a4]; split; auto; split; auto).
      split; auto.
      assert (P2 : forall w o, pair s2 n C w o -> (w = x /\ o = b) \/ (w = b /\ o = x)).
      { intros w o (_ & P). rewrite W2n in P. change (w1 s2 n) with (w1 s1 n) in P. rewrite E1 in P. tauto. }
      assert (NF : forall w o, pair s2 n C w o -> lit_false (tr s) w = true -> False).
      { intros w o P Fw. destruct (P2 w o P) as [(-> & _)|(-> & _)]; [congruence|eauto]. }
      apply OTHER; auto.
      * split.
        -- change (tr s2) with (tr s1). change (cl s2) with (cl s1). apply HS1.
        -- apply (ws_nd _ HS1).
        -- intros m D Hm. change (cl s2) with (cl s1) in Hm. destruct (Nat.eq_dec m n) as [->|N].
           ++ rewrite W2n. congruence.
           ++ rewrite W2 by auto. apply (ws_w0 _ HS1); auto.
        -- intros m D Hm LD. change (cl s2) with (cl s1) in Hm. change (w1 s2) with (w1 s1).
           destruct (Nat.eq_dec m n) as [->|N].
           ++ assert (D = C) by congruence. subst D. rewrite W2n, E1. split; auto.
           ++ rewrite W2 by auto. apply (ws_w1 _ HS1); auto.
        -- intros m D Hm LD. change (cl s2) with (cl s1) in Hm. change (w1 s2) with (w1 s1).
           eapply (ws_w1n _ HS1); eauto.
        -- intros m D y Hm. change (cl s2) with (cl s1) in Hm. change (w1 s2) with (w1 s1).
           pose proof (ws_occ _ HS1 m D y Hm) as OC. rewrite WL1 in OC. rewrite L2x.
           assert (RCm : nocc m (updl (wls s) l ns' y) =
              (nocc m (wls s y) - (if Nat.eqb m n then if lit_eqb y l then 1 else 0 else 0))%nat).
           { unfold updl. destruct (lit_eqb_spec y l) as [->|]; [|destruct (Nat.eqb m n); lia].
             rewrite (RC m). destruct (Nat.eqb m n); lia. }
           assert (RCx : nocc m (updl (updl (wls s) l ns') x (n :: wls s x) y) =
              ((if Nat.eqb m n then if lit_eqb y x then 1 else 0 else 0) + nocc m (updl (wls s) l ns' y))%nat).
           { unfold updl at 1. destruct (lit_eqb_spec y x) as [->|]; [|destruct (Nat.eqb m n); lia].
             rewrite updl_other by auto. unfold nocc. rewrite countb_cons. auto. }
           rewrite RCx, RCm, OC. destruct (Nat.eqb_spec m n) as [->|N].
           ++ assert (D = C) by congruence. subst D. rewrite W2n, E1, E0.
              destruct (Nat.ltb_spec 1 (length C)); [|lia]. simpl.
              destruct (lit_eqb y x), (lit_eqb y l), (lit_eqb y b); lia.
           ++ rewrite W2 by auto. lia.
        -- intros y m Hm. change (cl s2) with (cl s1). rewrite Ec1. rewrite L2x in Hm.
           assert (In m (wls s y) \/ m = n).
           { unfold updl in Hm. destruct (lit_eqb_spec y x) as [->|].
             - destruct Hm as [<-|Hm]; auto.
             - destruct (lit_eqb_spec y l) as [->|]; auto. }
           destruct H1 as [Hm'| ->]; [eapply ws_id; eauto|]. eapply nth_error_lt; eauto.
      * intros m Nm. destruct (SA1 m Nm) as [a1 a2 a3 a4 a5]. split; auto. rewrite W2; auto.
      * intros m Nm Hm. rewrite L2x. rewrite updl_other by auto. rewrite updl_same.
        apply nocc_pos. apply nocc_pos in Hm. rewrite (RC m) in Hm.
        destruct (Nat.eqb_spec m n); [congruence|]. lia.
      * intros m Hm. right. change (ulist s2) with (ulist s1) in Hm. congruence.
      * split; [lia|]. intros w o P Fw. change (tr s2) with (tr s1) in Fw. rewrite Et1 in Fw. exfalso. eauto.
      * split; [lia|]. intros w o P Fw. change (tr s2) with (tr s1) in Fw. rewrite Et1 in Fw. exfalso. eauto.
      * change (ulist s2) with (ulist s1). rewrite UL1. intro Hi. exfalso.
        destruct (PEND Hi) as (_ & PP). destruct (PP L2) as (w & o & P & Fw & _ & RF).
        destruct (lit_eq_dec w l) as [->|Nw].
        -- assert (o = b) by (exact (pair_fun s n C l o b HS HC P PB)). subst o.
           destruct (RF x Hx Nx). congruence.
        -- assert (X : w = b); [|rewrite X in Fw; eauto].
           destruct PB as (_ & [(A & B)|(A & B)]), P as (_ & [(A' & B')|(A' & B')]); congruence.
    + (* unit *)
      eexists. split; [reflexivity|]. set (s2 := set_ulist _ _).
      assert (F2 : wfr s s2) by (destruct F1 as [a1 [] a3 a4]; split; auto; split; auto).
      split; auto.
      assert (PD : exists w o, pair s2 n C w o /\ lit_false (tr s2) w = true /\
         llev (tr s2) w = level s2 /\ rest_false (tr s2) C o w).
      { exists l, b. change (tr s2) with (tr s1). change (level s2) with (level s1). rewrite Et1, El1.
        split; [apply P1; auto|]. split; auto. split; auto. intros y Hy Ny. split; auto. }
      apply OTHER; auto.
      * destruct HS1; split; auto.
      * intros m Nm. destruct (SA1 m Nm) as [a1 a2 a3 a4 a5]. split; auto. intro. right; auto.
      * intros m Nm Hm. change (wls s2) with (wls s1). congruence.
      * intros m [<-|Hm]; auto. right. congruence.
      * destruct O1 as (_ & O2). split; [lia|]. intros w o P. apply (proj1 (P1 _ _)) in P.
        change (tr s2) with (tr s1). change (level s2) with (level s1). rewrite Et1, El1. auto.
      * split; [lia|]. intros w o P Fw. right. change (tr s2) with (tr s1) in *. rewrite Et1 in *.
        change (level s2) with (level s1). rewrite El1. apply (proj1 (P1 _ _)) in P.
        destruct (lit_eq_dec w l) as [->|Nw].
        -- assert (o = b) by (exact (pair_fun s n C l o b HS HC P PB)). subst o. split; auto. split; auto.
           split; [left; left; auto|]. intros y Hy Ny. split; auto.
        -- exfalso. assert (w = b); [|subst; eauto].
           destruct PB as (_ & [(A & B)|(A & B)]), P as (_ & [(A' & B')|(A' & B')]); congruence.
      * intros _. split; [lia|]. intros _. exact PD.
  - (* conflict *)
    assert (Fb : lit_false (tr s) b = true) by (destruct (lit_cases (tr s) b) as [X|[X|X]]; intuition congruence).
    destruct (R2 b PB Fb) as (Lb & RF).
    eexists. split; [reflexivity|]. set (s2 := set_confcl _ _).
    assert (F2 : wfr s s2) by (destruct F1 as [a1 [] a3 a4]; split; auto; split; auto).
    split; auto.
    assert (AF : forall x, In x C -> lit_false (tr s) x = true).
    { intros x Hx. destruct (lit_eq_dec x l) as [->|Nx]; auto. apply RF; auto. }
    split; try (change (tr s2) with (tr s1); rewrite Et1); try (change (cl s2) with (cl s1); rewrite Ec1);
      try (change (level s2) with (level s1); rewrite El1); try apply H; try (intro X; discriminate X).
    + destruct HS1; split; auto.
    + intros m D Hm. destruct (Nat.eq_dec m n) as [->|N].
      * assert (D = C) by congruence. subst D. destruct O1 as (_ & O2). split; [lia|]. intros w o P. apply (proj1 (P1 _ _)) in P.
        change (tr s2) with (tr s1). change (level s2) with (level s1). rewrite Et1, El1. auto.
      * apply (old_same s); [|apply (kw_old _ _ _ _ H); auto].
        destruct (SA1 m N) as [a1 a2 a3 a4 a5]. split; auto.
    + intros _. change (confcl s2) with n. exists C. split; auto.
      unfold confok. change (tr s2) with (tr s1). change (w0 s2) with (w0 s1). change (w1 s2) with (w1 s1).
      rewrite Et1, E0, E1. split; auto. split; [auto|]. intros _ x Hx Nx. apply RF; auto.
Qed.

(** ** Assigning one atom *)

Lemma nodup_nocc l : (forall n, (nocc n l <= 1)%nat) -> NoDup l.
Proof.
  induction l as [|n l IH]; intro H; constructor.
  - intro Hn. apply nocc_pos in Hn. specialize (H n). unfold nocc in *. rewrite countb_cons, Nat.eqb_refl in H. lia.
  - apply IH. intro m. specialize (H m). unfold nocc in *. rewrite countb_cons in H. lia.
Qed.

Lemma WS_nodup s l : WS s -> NoDup (wls s l).
Proof.
  intro H. apply nodup_nocc. intro n. destruct (le_lt_dec (length (cl s)) n) as [L|L].
  - assert (E : nocc n (wls s l) = 0%nat); [|lia]. apply nocc_zero. intro Hn. apply (ws_id _ H) in Hn. lia.
  - destruct (lt_nth_error (cl s) n L) as (C & HC). rewrite (ws_occ _ H n C l HC).
    destruct (Nat.ltb_spec 1 (length C)); simpl; [|destruct (lit_eqb l (w0 s n)); lia].
    destruct (ws_w1 _ H n C HC) as (_ & N); auto.
    destruct (lit_eqb_spec l (w0 s n)), (lit_eqb_spec l (w1 s n)); try lia. congruence.
Qed.

Lemma WS_in_wls s n C l : WS s -> nth_error (cl s) n = Some C ->
  (In n (wls s l) <-> l = w0 s n \/ (2 <= length C)%nat /\ l = w1 s n).
Proof.
  intros H HC. rewrite <- nocc_pos, (ws_occ _ H n C l HC).
  destruct (Nat.ltb_spec 1 (length C)); simpl;
    destruct (lit_eqb_spec l (w0 s n)), (lit_eqb_spec l (w1 s n)); split; intro X; auto; try lia;
    destruct X as [|(? & ?)]; congruence || lia.
Qed.

Lemma pair_nin s n C l w o : WS s -> nth_error (cl s) n = Some C -> ~ In n (wls s l) ->
  pair s n C w o -> w <> l /\ o <> l.
Proof.
  intros H HC N (L & P). rewrite (WS_in_wls s n C l H HC) in N.
  split; intros ->; apply N; destruct P as [(A & B)|(A & B)]; auto.
Qed.

Lemma mark_other t lev r v d a l : lvar l <> v \/ lval l <> d ->
  lit_true (markT t lev r v d a) l = lit_true t l /\ lit_false (markT t lev r v d a) l = lit_false t l /\
  lit_un (markT t lev r v d a) l = lit_un t l /\ llev (markT t lev r v d a) l = llev t l /\
  lidx (markT t lev r v d a) l = lidx t l.
Proof.
  intro N. unfold lit_true, lit_false, lit_un, llev, lidx. simpl.
  rewrite !upd2_other by auto. auto.
Qed.

Lemma foldM_wstep xs l ns s :
  DOM (tr s) 0 = 0 -> KW xs l ns s -> NoDup ns ->
  exists s', foldM (wfalsify_step l) ns s = Ok s' /\ wfr s s' /\ KW xs l [] s'.
Proof.
  revert s; induction ns as [|n ns IH]; intros s D0 H ND.
  - exists s. split; auto. split; [apply wfr_refl|auto].
  - inversion ND; subst. destruct (wstep_ok xs l n ns s) as (s1 & E1 & F1 & K1); auto.
    cbn [foldM]. rewrite E1. cbn [bind]. destruct (IH s1) as (s2 & E2 & F2 & K2); auto.
    { rewrite (wf_tr _ _ F1); auto. }
    exists s2. split; auto. split; auto. eapply wfr_trans; eauto.
Qed.

Lemma wassign_ok xs c s v d a :
  JW xs s -> bounded s -> 0 <= level s -> DOM (tr s) 0 = 0 ->
  (1 <= length (DST (tr s)))%nat ->
  range (tr s) v d -> ASG (tr s) v d = Un -> a <> Un ->
  exists s', wassign_atom c s v d a = Ok s' /\ assign_post s v d a s' /\ JW xs s'.
Proof.
  intros H B L0 D0 LD R U Na. unfold wassign_atom, wfalsify. cbv zeta.
  set (l := mkLit v d (match a with Pos => true | _ => false end)).
  set (s1 := mark c s v d a).
  assert (Et : tr s1 = markT (tr s) (level s) (uclause s) v d a).
  { unfold s1, mark. destruct (is_bk c); reflexivity. }
  assert (F1 : fr s s1 /\ uclause s1 = uclause s /\ entails s1 = entails s /\ cl s1 = cl s /\ w0 s1 = w0 s /\
     w1 s1 = w1 s /\ wls s1 = wls s /\ ulist s1 = ulist s /\ level s1 = level s /\ conflict s1 = conflict s /\
     confcl s1 = confcl s).
  { unfold s1, mark. destruct (is_bk c); simpl; (split; [split; auto|auto 12]). }
  destruct F1 as (F1 & Eu & Ee & Ec & E0 & E1 & Ew & El & Elv & Ecf & Ecc).
  assert (Ex : ext (tr s) (tr s1)) by (rewrite Et; apply ext_mark; auto).
  assert (Tl : lit_true (tr s1) l = true).
  { apply lit_true_asg. rewrite Et. simpl. rewrite upd2_same. destruct a; auto; congruence. }
  assert (Fl : lit_false (tr s1) (neg l) = true) by (rewrite lit_false_neg; auto).
  assert (Ul : lit_un (tr s) (neg l) = true) by (apply lit_un_iff; auto).
  assert (Ul' : lit_un (tr s) l = true) by (apply lit_un_iff; auto).
  assert (Ll : forall x, lvar x = v -> lval x = d -> llev (tr s1) x = level s).
  { intros x Xv Xd. unfold llev. rewrite Xv, Xd, Et. simpl. apply upd2_same. }
  assert (Li : forall x, lvar x = v -> lval x = d -> lidx (tr s1) x = Z.of_nat (length (DST (tr s))) - 1).
  { intros x Xv Xd. unfold lidx. rewrite Xv, Xd, Et. simpl. apply upd2_same. }
  assert (LC : forall x, x = l \/ x = neg l \/
     lit_true (tr s1) x = lit_true (tr s) x /\ lit_false (tr s1) x = lit_false (tr s) x /\
     lit_un (tr s1) x = lit_un (tr s) x /\ llev (tr s1) x = llev (tr s) x /\ lidx (tr s1) x = lidx (tr s) x).
  { intro x. destruct (Z.eq_dec (lvar x) v) as [Ev|N]; [destruct (Z.eq_dec (lval x) d) as [Ed|N]|].
    - unfold l, neg; simpl. destruct x as [v' d' e]; simpl in *; subst.
      destruct a, e; simpl; auto.
    - right; right. rewrite Et. apply mark_other; auto.
    - right; right. rewrite Et. apply mark_other; auto. }
  pose proof (jw_ws _ _ H) as HS.
  assert (Rl : lrange (tr s1) (neg l)) by (unfold lrange; apply (ext_range (tr s)); auto).
  assert (D1 : DOM (tr s1) 0 = 0) by (rewrite (ext_dom _ _ Ex); auto).
  rewrite chk_ok by auto. cbn [bind].
  assert (HS1 : WS s1).
  { destruct HS as [h1 h2 h3 h4 h5 h6 h7]. split; rewrite ?Ec, ?E0, ?E1, ?Ew; auto.
    intros D x HD Hx. unfold lrange. apply (ext_range (tr s)); auto. eapply h1; eauto. }
  assert (FS : forall x, x <> neg l -> lit_false (tr s1) x = true -> lit_false (tr s) x = true).
  { intros x Nx Fx. destruct (LC x) as [->|[->|(_ & Q & _)]]; try congruence.
    exfalso. destruct (lit_cases (tr s1) l) as [Z|[Z|Z]]; intuition congruence. }
  assert (RFx : forall D o w, lit_un (tr s) w = false -> rest_false (tr s) D o w -> rest_false (tr s1) D o w).
  { intros D o w Uw RF x Hx Nx. destruct (RF x Hx Nx) as (Fx & Ix). split; [apply (ext_false (tr s)); auto|].
    rewrite !(ext_lidx (tr s) (tr s1)); auto. apply lit_false_un; auto. }
  assert (PS : forall n C w o, pair s1 n C w o <-> pair s n C w o).
  { intros. unfold pair. rewrite E0, E1. tauto. }
  assert (K : KW xs (neg l) (wls s1 (neg l)) s1).
  { split; auto.
    - rewrite Ll by auto. congruence.
    - intros n C x HC Hx Ux. rewrite Elv. rewrite Ec in HC. pose proof (WS_range s n C x HS HC Hx) as Rx.
      destruct (LC x) as [->|[->|(_ & _ & Q & Q1 & _)]]; [rewrite Ll by auto; lia..|].
      rewrite Q1. rewrite Q in Ux. apply lit_un_false_iff in Ux. apply (B (lvar x) (lval x)); auto.
    - intros n C x HC Hx Fx. rewrite Ec in HC. pose proof (WS_range s n C x HS HC Hx) as Rx.
      rewrite (Li (neg l)) by auto.
      destruct (LC x) as [->|[->|(_ & Q & _ & _ & Q1)]]; [rewrite Li by auto; lia..|].
      rewrite Q1. rewrite Q in Fx. apply lit_false_as in Fx. pose proof (proj2 (B (lvar x) (lval x) Rx Fx)).
      unfold lidx. lia.
    - intros n C HC. rewrite Ec in HC. destruct (jw_old _ _ H n C HC) as (O1 & O2). split.
      + rewrite Elv, E0. intros L1 Lp. destruct (O1 L1 Lp) as (T0 & T1). split; [apply (ext_true (tr s)); auto|].
        rewrite (ext_llev (tr s)); auto. apply lit_true_un; auto.
      + rewrite Elv. intros w o P Fw Lw. apply PS in P.
        assert (Nw : w <> neg l) by (intros ->; rewrite Ll in Lw by auto; lia).
        pose proof (FS w Nw Fw) as Fw'. rewrite (ext_llev (tr s) (tr s1) w) in * by (auto; apply lit_false_un; auto).
        destruct (O2 w o P Fw' Lw) as (To & Lo). split; [apply (ext_true (tr s)); auto|].
        rewrite (ext_llev (tr s)); auto. apply lit_true_un; auto.
    - rewrite Ecf. intros Cf n C HC Hn. rewrite Ec in HC. destruct (jw_good _ _ H Cf n C HC) as (_ & G2).
      apply (WS_in_wls s1 n C) in Hn; auto; [|congruence]. split; [destruct Hn as [|(? & ?)]; auto|].
      intros o P Fo. apply PS in P. pose proof (pair_in _ _ _ _ _ HS HC P) as (_ & _ & No).
      pose proof (FS o (not_eq_sym No) Fo) as Fo'. rewrite Elv.
      rewrite (ext_llev (tr s) (tr s1) o) by (auto; apply lit_false_un; auto).
      destruct (G2 o (neg l) (pair_sym _ _ _ _ _ P) Fo') as [(T0 & _)|(A1 & A2 & A3 & A4)].
      + apply lit_true_un in T0. congruence.
      + split; auto. apply RFx; auto. apply lit_false_un; auto.
    - rewrite Ecf. intros Cf n C HC Hn. rewrite Ec in HC. destruct (jw_good _ _ H Cf n C HC) as (G1 & G2).
      rewrite Ew in Hn. split.
      + rewrite E0, Elv, El. intro L1. destruct (G1 L1) as [(T0 & T1)|(T0 & T1 & T2)].
        * left. split; [apply (ext_true (tr s)); auto|]. rewrite (ext_llev (tr s)); auto. apply lit_true_un; auto.
        * destruct (LC (w0 s n)) as [E|[E|(Q1 & Q2 & Q3 & _)]].
          -- left. rewrite E. split; auto. rewrite Ll; auto.
          -- exfalso. apply Hn. apply (WS_in_wls s n C); auto.
          -- right. rewrite Q3. auto.
      + rewrite Elv, El. intros w o P Fw. apply PS in P.
        destruct (pair_nin _ _ _ _ _ _ HS HC Hn P) as (Nw & No).
        pose proof (FS w Nw Fw) as Fw'. assert (Uw := lit_false_un _ _ Fw').
        rewrite (ext_llev (tr s) (tr s1) w) by auto.
        destruct (G2 w o P Fw') as [(T0 & T1)|(A1 & A2 & A3 & A4)].
        * left. split; [apply (ext_true (tr s)); auto|]. rewrite (ext_llev (tr s)); auto. apply lit_true_un; auto.
        * destruct (LC o) as [->|[->|(Q1 & Q2 & Q3 & _)]]; [|congruence|].
          -- left. split; auto. rewrite Ll by auto. lia.
          -- right. rewrite Q3. auto.
    - rewrite Ecf, El, Ec. intros Cf n Hn. destruct (jw_pend _ _ H Cf n Hn) as (C & HC & P1 & P2).
      exists C. split; auto. split; [rewrite Elv; auto|]. intro L2. destruct (P2 L2) as (w & o & P & Fw & Lw & RF).
      exists w, o. assert (Uw := lit_false_un _ _ Fw). split; [apply PS; auto|].
      split; [apply (ext_false (tr s)); auto|]. rewrite Elv, (ext_llev (tr s)) by auto. split; auto.
    - rewrite Ecf, Ecc, Ec. intros Cf. destruct (jw_conf _ _ H Cf) as (C & HC & P1 & P2 & P3).
      exists C. split; auto. unfold confok. rewrite E0, E1.
      assert (IX : forall x, In x C -> lidx (tr s1) x = lidx (tr s) x).
      { intros x Hx. apply ext_lidx; auto. apply lit_false_un. auto. }
      split; [intros; apply (ext_false (tr s)); auto|].
      split; [intros x Hx; rewrite !IX by (auto; apply (ws_w0 _ HS); auto); auto|].
      intros L2 x Hx Nx. destruct (ws_w1 _ HS _ _ HC L2). rewrite !IX; auto. }
  destruct (foldM_wstep xs (neg l) (wls s1 (neg l)) s1 D1 K (WS_nodup s1 (neg l) HS1))
    as (s2 & E2 & F2 & K2).
  exists s2. split; auto. split.
  - split; [rewrite (wf_tr _ _ F2); auto|]. split; [eapply fr_trans; [exact F1|apply F2]|].
    rewrite (wf_ucl _ _ F2), (wf_ent _ _ F2). auto.
  - destruct K2 as [k1 k2 k3 k4 k5 k6 k7 k8 k9 k10 k11 k12]. split; auto.
Qed.
