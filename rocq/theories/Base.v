(** * Elementary facts used by the proofs *)

From Coq Require FinFun.
From Verif Require Import Spec Outcome State.

(** ** Outcomes *)

Lemma bind_ok {A B} (o : outcome A) (f : A -> outcome B) b :
  bind o f = Ok b -> exists a, o = Ok a /\ f a = Ok b.
Proof. destruct o; simpl; intro H; try discriminate; eauto. Qed.

Lemma foldM_app {A B} (f : B -> A -> outcome B) l1 l2 b :
  foldM f (l1 ++ l2) b = bind (foldM f l1 b) (foldM f l2).
Proof.
  revert b; induction l1 as [|x l1 IH]; intro b; simpl; [reflexivity|].
  destruct (f b x); simpl; auto.
Qed.

(** Loop rule: an invariant indexed by the processed prefix. *)
Lemma foldM_ind {A B} (f : B -> A -> outcome B) (P : list A -> B -> Prop) l b :
  P [] b ->
  (forall pre x suf b', l = pre ++ x :: suf -> P pre b' ->
     exists b'', f b' x = Ok b'' /\ P (pre ++ [x]) b'') ->
  exists b', foldM f l b = Ok b' /\ P l b'.
Proof.
  intros H0 Hs.
  assert (G : forall suf pre b0, l = pre ++ suf -> P pre b0 ->
            exists b', foldM f suf b0 = Ok b' /\ P l b').
  { induction suf as [|x suf IH]; intros pre b0 E HP; simpl.
    - rewrite app_nil_r in E; subst; eauto.
    - destruct (Hs pre x suf b0 E HP) as (b1 & E1 & HP1).
      rewrite E1; simpl. apply (IH (pre ++ [x])); auto.
      rewrite <- app_assoc; exact E. }
  apply (G l [] b); auto.
Qed.

(** Loop rule: a plain invariant. *)
Lemma foldM_inv {A B} (f : B -> A -> outcome B) (P : B -> Prop) l b :
  P b ->
  (forall x b', In x l -> P b' -> exists b'', f b' x = Ok b'' /\ P b'') ->
  exists b', foldM f l b = Ok b' /\ P b'.
Proof.
  intros H0 Hs.
  destruct (foldM_ind f (fun _ => P) l b H0) as (b' & E & H).
  - intros pre x suf b' -> HP. apply Hs; auto. apply in_or_app; right; left; reflexivity.
  - eauto.
Qed.

(** Partial-correctness loop rule. *)
Lemma foldM_inv_ok {A B} (f : B -> A -> outcome B) (P : B -> Prop) l b b' :
  P b ->
  (forall x b1 b2, In x l -> P b1 -> f b1 x = Ok b2 -> P b2) ->
  foldM f l b = Ok b' -> P b'.
Proof.
  revert b; induction l as [|x l IH]; simpl; intros b H0 Hs E.
  - inversion E; subst; auto.
  - apply bind_ok in E; destruct E as (b1 & E1 & E2).
    apply (IH b1); eauto.
Qed.

(** ** Literals *)

Lemma lit_eqb_spec a b : reflect (a = b) (lit_eqb a b).
Proof.
  unfold lit_eqb; destruct a as [v d e], b as [v' d' e']; simpl.
  destruct (Z.eqb_spec v v'); simpl; [|constructor; congruence].
  destruct (Z.eqb_spec d d'); simpl; [|constructor; congruence].
  destruct (Bool.eqb_spec e e'); constructor; congruence.
Qed.

Lemma lit_eqb_refl a : lit_eqb a a = true.
Proof. destruct (lit_eqb_spec a a); congruence. Qed.

Lemma lit_eq_dec (a b : lit) : {a = b} + {a <> b}.
Proof. destruct (lit_eqb_spec a b); auto. Qed.

Lemma lit_eta l : mkLit (lvar l) (lval l) (leq l) = l.
Proof. destruct l; reflexivity. Qed.

Lemma neg_neg l : neg (neg l) = l.
Proof. destruct l; unfold neg; simpl; rewrite negb_involutive; reflexivity. Qed.

Lemma has_atom_In c l : existsb (lit_eqb l) c = true <-> In l c.
Proof.
  rewrite existsb_exists; split.
  - intros (x & Hx & E). destruct (lit_eqb_spec l x); congruence.
  - intro H; exists l; split; auto using lit_eqb_refl.
Qed.

Lemma has_atom_nIn c l : existsb (lit_eqb l) c = false <-> ~ In l c.
Proof.
  rewrite <- has_atom_In. destruct (existsb (lit_eqb l) c); split; intro H; try congruence.
Qed.

Lemma lit_holds_dec a l : {lit_holds a l} + {~ lit_holds a l}.
Proof.
  unfold lit_holds; destruct (leq l);
    destruct (Z.eq_dec (a (lvar l)) (lval l)); auto.
Qed.

Lemma lit_holds_neg a l : lit_holds a (neg l) <-> ~ lit_holds a l.
Proof.
  unfold lit_holds, neg; simpl; destruct (leq l); simpl; [tauto|].
  destruct (Z.eq_dec (a (lvar l)) (lval l)); tauto.
Qed.

(** ** Functional updates *)

Lemma upd1_same {A} (f : Z -> A) x a : upd1 f x a x = a.
Proof. unfold upd1; rewrite Z.eqb_refl; reflexivity. Qed.
Lemma upd1_other {A} (f : Z -> A) x a y : y <> x -> upd1 f x a y = f y.
Proof. unfold upd1; intro H; destruct (Z.eqb_spec y x); congruence. Qed.
Lemma upd2_same {A} (f : Z -> Z -> A) x d a : upd2 f x d a x d = a.
Proof. unfold upd2; rewrite !Z.eqb_refl; reflexivity. Qed.
Lemma upd2_other {A} (f : Z -> Z -> A) x d a y e :
  y <> x \/ e <> d -> upd2 f x d a y e = f y e.
Proof.
  unfold upd2; intro H; destruct (Z.eqb_spec y x); simpl; auto.
  destruct (Z.eqb_spec e d); simpl; auto. intuition congruence.
Qed.
Lemma updn_same {A} (f : nat -> A) n a : updn f n a n = a.
Proof. unfold updn; rewrite Nat.eqb_refl; reflexivity. Qed.
Lemma updn_other {A} (f : nat -> A) n a m : m <> n -> updn f n a m = f m.
Proof. unfold updn; intro H; destruct (Nat.eqb_spec m n); congruence. Qed.
Lemma updl_same {A} (f : lit -> A) l a : updl f l a l = a.
Proof. unfold updl; rewrite lit_eqb_refl; reflexivity. Qed.
Lemma updl_other {A} (f : lit -> A) l a m : m <> l -> updl f l a m = f m.
Proof. unfold updl; intro H; destruct (lit_eqb_spec m l); congruence. Qed.

(** ** Ranges *)

Lemma in_zrange lo n x : In x (zrange lo n) <-> lo <= x < lo + n.
Proof.
  unfold zrange; rewrite in_map_iff; split.
  - intros (k & <- & Hk). apply in_seq in Hk. lia.
  - intro H. exists (Z.to_nat (x - lo)). split; [lia|]. apply in_seq. lia.
Qed.

Lemma nodup_zrange lo n : NoDup (zrange lo n).
Proof.
  unfold zrange. apply FinFun.Injective_map_NoDup; [|apply seq_NoDup].
  intros a b H; lia.
Qed.

Lemma in_atoms_from t lo v d :
  In (v, d) (atoms_from t lo) <-> lo <= v <= NV t /\ 0 <= d < DOM t v.
Proof.
  unfold atoms_from; rewrite in_flat_map; split.
  - intros (w & Hw & H). apply in_map_iff in H; destruct H as (e & E & He).
    inversion E; subst. apply in_zrange in Hw, He. lia.
  - intros (Hv & Hd). exists v; split; [apply in_zrange; lia|].
    apply in_map_iff; exists d; split; auto. apply in_zrange; lia.
Qed.

Lemma nodup_app {A} (l1 l2 : list A) :
  NoDup l1 -> NoDup l2 -> (forall x, In x l1 -> ~ In x l2) -> NoDup (l1 ++ l2).
Proof.
  induction 1 as [|a l Ha N1 IHl]; simpl; intros N2 D; auto.
  constructor.
  - rewrite in_app_iff. intros [H|H]; [auto|]. apply (D a); simpl; auto.
  - apply IHl; auto.
Qed.

Lemma nodup_flat_map_pair (f : Z -> list Z) vs :
  NoDup vs -> (forall v, NoDup (f v)) ->
  NoDup (flat_map (fun v => map (fun d => (v, d)) (f v)) vs).
Proof.
  intros Hv Hf; induction Hv as [|v vs Hn Hv IH]; simpl; [constructor|].
  apply nodup_app; auto.
  - apply FinFun.Injective_map_NoDup; auto. intros a b H; congruence.
  - intros [x d] H1 H2. apply in_map_iff in H1; destruct H1 as (e & E & _).
    inversion E; subst. apply in_flat_map in H2; destruct H2 as (w & Hw & H2).
    apply in_map_iff in H2; destruct H2 as (e & E2 & _). inversion E2; subst; auto.
Qed.

Lemma nodup_atoms t lo : NoDup (atoms_from t lo).
Proof.
  unfold atoms_from. apply (nodup_flat_map_pair (fun v => zrange 0 (DOM t v))).
  - apply nodup_zrange.
  - intro; apply nodup_zrange.
Qed.

(** ** Lists *)

Lemma nth_error_snoc {A} (l : list A) x i y :
  nth_error (l ++ [x]) i = Some y ->
  (i < length l)%nat /\ nth_error l i = Some y \/ i = length l /\ y = x.
Proof.
  intro H. destruct (Nat.lt_ge_cases i (length l)) as [L|L].
  - left; split; auto. rewrite nth_error_app1 in H; auto.
  - right. rewrite nth_error_app2 in H; auto.
    destruct (i - length l)%nat as [|k] eqn:E; simpl in H.
    + split; [lia|congruence].
    + destruct k; discriminate.
Qed.

Lemma nth_error_snoc_last {A} (l : list A) x : nth_error (l ++ [x]) (length l) = Some x.
Proof. rewrite nth_error_app2; auto. rewrite Nat.sub_diag; reflexivity. Qed.

Lemma nth_error_snoc_old {A} (l : list A) x i y :
  nth_error l i = Some y -> nth_error (l ++ [x]) i = Some y.
Proof.
  intro H. rewrite nth_error_app1; auto. apply nth_error_Some; congruence.
Qed.

Lemma nth_error_lt {A} (l : list A) i y : nth_error l i = Some y -> (i < length l)%nat.
Proof. intro H; apply nth_error_Some; congruence. Qed.

Lemma lt_nth_error {A} (l : list A) i : (i < length l)%nat -> exists y, nth_error l i = Some y.
Proof.
  intro H. destruct (nth_error l i) eqn:E; eauto.
  apply nth_error_None in E; lia.
Qed.

(** Number of elements satisfying a test. *)
Definition countb {A} (f : A -> bool) (l : list A) : nat := length (filter f l).

Lemma countb_ext {A} (f g : A -> bool) l :
  (forall x, In x l -> f x = g x) -> countb f l = countb g l.
Proof.
  unfold countb; induction l as [|x l IH]; simpl; intro H; auto.
  rewrite (H x (or_introl eq_refl)). destruct (g x); simpl; rewrite IH; auto.
Qed.

Lemma countb_le {A} (f g : A -> bool) l :
  (forall x, In x l -> f x = true -> g x = true) -> (countb f l <= countb g l)%nat.
Proof.
  unfold countb; induction l as [|x l IH]; simpl; intro H; auto.
  pose proof (H x (or_introl eq_refl)).
  assert (IH' : (length (filter f l) <= length (filter g l))%nat) by (apply IH; auto).
  destruct (f x); destruct (g x); simpl; auto; try lia.
Qed.

Lemma countb_pos {A} (f : A -> bool) l :
  (0 < countb f l)%nat <-> exists x, In x l /\ f x = true.
Proof.
  unfold countb; induction l as [|x l IH]; simpl.
  - split; [lia|]. intros (x & [] & _).
  - destruct (f x) eqn:E; simpl.
    + split; [intros _; eauto|lia].
    + rewrite IH; split.
      * intros (y & Hy & Ey); eauto.
      * intros (y & [->|Hy] & Ey); [congruence|eauto].
Qed.

Lemma countb_zero {A} (f : A -> bool) l :
  countb f l = 0%nat <-> forall x, In x l -> f x = false.
Proof.
  split.
  - intros H x Hx. destruct (f x) eqn:E; auto.
    assert (0 < countb f l)%nat by (apply countb_pos; eauto). lia.
  - intro H. destruct (countb f l) eqn:E; auto.
    assert (0 < countb f l)%nat as P by lia. apply countb_pos in P.
    destruct P as (x & Hx & Ex). rewrite H in Ex; congruence.
Qed.

Lemma countb_cons {A} (f : A -> bool) x l :
  countb f (x :: l) = ((if f x then 1 else 0) + countb f l)%nat.
Proof. unfold countb; simpl; destruct (f x); reflexivity. Qed.

Lemma countb_two {A} (f : A -> bool) l :
  (2 <= countb f l)%nat -> NoDup l ->
  exists x y, In x l /\ In y l /\ x <> y /\ f x = true /\ f y = true.
Proof.
  induction l as [|x l IH]; intros H N; [unfold countb in H; simpl in H; lia|].
  inversion N as [|? ? Hn N']; subst. rewrite countb_cons in H. destruct (f x) eqn:E.
  - assert (0 < countb f l)%nat as P by lia.
    apply countb_pos in P; destruct P as (y & Hy & Ey).
    exists x, y; simpl; repeat split; auto. intros ->; auto.
  - destruct IH as (a & b & Ha & Hb & R); auto. exists a, b; simpl; tauto.
Qed.

Lemma countb_one_unique {A} (f : A -> bool) l x y :
  (countb f l <= 1)%nat -> In x l -> In y l -> f x = true -> f y = true -> x = y.
Proof.
  induction l as [|z l IH]; simpl; intros H Hx Hy Ex Ey; [tauto|].
  rewrite countb_cons in H. destruct (f z) eqn:E.
  - assert (countb f l = 0)%nat as Z0 by lia.
    rewrite countb_zero in Z0.
    destruct Hx as [->|Hx]; destruct Hy as [->|Hy]; auto.
    + rewrite Z0 in Ey; congruence.
    + rewrite Z0 in Ex; congruence.
    + rewrite Z0 in Ex; congruence.
  - destruct Hx as [->|Hx]; [congruence|]. destruct Hy as [->|Hy]; [congruence|]. auto.
Qed.

Lemma countb_app {A} (f : A -> bool) l1 l2 : countb f (l1 ++ l2) = (countb f l1 + countb f l2)%nat.
Proof. unfold countb; rewrite filter_app, app_length; reflexivity. Qed.

Lemma countb_sum {A} (f g h : A -> bool) l :
  (forall x, In x l -> (if f x then 1 else 0) = ((if g x then 1 else 0) + (if h x then 1 else 0)))%nat ->
  countb f l = (countb g l + countb h l)%nat.
Proof.
  induction l as [|x l IH]; intro H; auto.
  rewrite !countb_cons, IH by (intros; apply H; simpl; auto).
  pose proof (H x (or_introl eq_refl)). lia.
Qed.

Lemma countb_length {A} (f : A -> bool) l :
  (forall x, In x l -> f x = true) -> countb f l = length l.
Proof.
  induction l as [|x l IH]; intro H; auto.
  rewrite countb_cons, IH, H; simpl; auto. intros; apply H; simpl; auto.
Qed.

Lemma countb_le_length {A} (f : A -> bool) l : (countb f l <= length l)%nat.
Proof. induction l as [|x l IH]; simpl; auto. rewrite countb_cons. destruct (f x); lia. Qed.

(** Occurrences of a literal / of a clause id. *)
Definition occ (l : lit) (c : clause) : nat := countb (lit_eqb l) c.
Definition nocc (n : nat) (l : list nat) : nat := countb (Nat.eqb n) l.

Lemma occ_pos l c : (0 < occ l c)%nat <-> In l c.
Proof.
  unfold occ; rewrite countb_pos; split.
  - intros (x & Hx & E). destruct (lit_eqb_spec l x); congruence.
  - intro H; exists l; split; auto using lit_eqb_refl.
Qed.

Lemma nocc_pos n l : (0 < nocc n l)%nat <-> In n l.
Proof.
  unfold nocc; rewrite countb_pos; split.
  - intros (x & Hx & E). apply Nat.eqb_eq in E; congruence.
  - intro H; exists n; split; auto using Nat.eqb_refl.
Qed.

Lemma nocc_zero n l : nocc n l = 0%nat <-> ~ In n l.
Proof. rewrite <- nocc_pos. lia. Qed.

Lemma occ_nodup l c : NoDup c -> (occ l c <= 1)%nat.
Proof.
  induction 1 as [|x c Hn H IH]; [unfold occ, countb; simpl; lia|].
  unfold occ in *; rewrite countb_cons. destruct (lit_eqb_spec l x); simpl; auto.
  subst. enough (countb (lit_eqb x) c = 0%nat) by lia.
  apply countb_zero. intros y Hy. destruct (lit_eqb_spec x y); congruence.
Qed.

Lemma existsb_false_iff {A} (f : A -> bool) l :
  existsb f l = false <-> forall x, In x l -> f x = false.
Proof.
  split.
  - intros H x Hx. destruct (f x) eqn:E; auto.
    assert (existsb f l = true) by (apply existsb_exists; eauto). congruence.
  - intro H. destruct (existsb f l) eqn:E; auto.
    apply existsb_exists in E; destruct E as (x & Hx & Ex). rewrite H in Ex; congruence.
Qed.
