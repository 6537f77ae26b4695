(** * The generators *)

From Coq Require Import Ascii String.
From Verif Require Import Spec Outcome State Base ModelBuild TextSpec ModelText ModelRead ModelCli EncodeSpec ModelEncode ModelGen
  Text Read Encode.
#[local] Open Scope char_scope.
#[local] Open Scope Z_scope.

(** ** Random computations *)

Definition nonneg (r : list Z) : Prop := forall x, In x r -> 0 <= x.

Definition post {B} (f : rnd -> outcome (B * rnd)) (P : B -> Prop) : Prop :=
  forall r b r', nonneg r -> f r = Ok (b, r') -> P b /\ nonneg r'.

(** What is left over does not matter. *)
Definition frame {B} (f : rnd -> outcome (B * rnd)) : Prop :=
  forall r b r' x, f r = Ok (b, r') -> f (r ++ x)%list = Ok (b, r' ++ x)%list.

(** No undefined behaviour, and every list of numbers can be continued to one with which the
    computation finishes. *)
Definition live {B} (f : rnd -> outcome (B * rnd)) (P : B -> Prop) : Prop :=
  forall r, nonneg r ->
    (exists b r', f r = Ok (b, r') /\ P b /\ nonneg r') \/
    (f r = OutOfFuel /\ exists x b r', nonneg x /\ f (r ++ x)%list = Ok (b, r') /\ P b /\ nonneg r').

Definition seqr {A B} (f : rnd -> outcome (A * rnd)) (g : A -> rnd -> outcome (B * rnd)) (r : rnd) : outcome (B * rnd) :=
  let* q := f r in let (a, r) := q in g a r.

Lemma nonneg_app a b : nonneg (a ++ b) <-> nonneg a /\ nonneg b.
Proof. unfold nonneg. split; [intro H; split; intros x Hx; apply H; apply in_or_app; auto|]. intros (H1 & H2) x Hx. apply in_app_or in Hx. destruct Hx; auto. Qed.

Lemma seqr_post {A B} (f : rnd -> outcome (A * rnd)) (g : A -> rnd -> outcome (B * rnd)) P Q :
  post f P -> (forall a, P a -> post (g a) Q) -> post (seqr f g) Q.
Proof.
  intros F G r b r' N E. unfold seqr in E. destruct (f r) as [[a r1]| |] eqn:Ef; try discriminate. cbn [bind] in E.
  destruct (F r a r1 N Ef) as (Pa & N1). apply (G a Pa r1 b r' N1 E).
Qed.

Lemma seqr_frame {A B} (f : rnd -> outcome (A * rnd)) (g : A -> rnd -> outcome (B * rnd)) :
  frame f -> (forall a, frame (g a)) -> frame (seqr f g).
Proof.
  intros F G r b r' x E. unfold seqr in *. destruct (f r) as [[a r1]| |] eqn:Ef; try discriminate. cbn [bind] in E.
  rewrite (F _ _ _ x Ef). cbn [bind]. apply G. exact E.
Qed.

Lemma seqr_live {A B} (f : rnd -> outcome (A * rnd)) (g : A -> rnd -> outcome (B * rnd)) P Q :
  frame f -> live f P -> (forall a, frame (g a)) -> (forall a, P a -> live (g a) Q) -> live (seqr f g) Q.
Proof.
  intros FF F FG G r N. unfold seqr. destruct (F r N) as [(a & r1 & E & Pa & N1)|(E & x & a & r1 & Nx & E1 & Pa & N1)].
  - rewrite E. cbn [bind]. destruct (G a Pa r1 N1) as [(b & r2 & E2 & Qb & N2)|(E2 & y & b & r2 & Ny & E3 & Qb & N2)].
    + left. eauto.
    + right. split; auto. exists y, b, r2. split; auto. rewrite (FF _ _ _ y E). cbn [bind]. auto.
  - right. rewrite E. split; auto.
    destruct (G a Pa r1 N1) as [(b & r2 & E2 & Qb & N2)|(E2 & y & b & r2 & Ny & E3 & Qb & N2)].
    + exists x, b, r2. split; auto. rewrite E1. cbn [bind]. auto.
    + exists (x ++ y)%list, b, r2. split; [apply nonneg_app; auto|]. rewrite app_assoc, (FF _ _ _ y E1). cbn [bind]. auto.
Qed.

Lemma ret_post {B} (b : B) (P : B -> Prop) : P b -> post (fun r => Ok (b, r)) P.
Proof. intros H r b' r' N E. injection E as <- <-. auto. Qed.
Lemma ret_frame {B} (b : B) : frame (fun r => Ok (b, r)).
Proof. intros r b' r' x E. injection E as <- <-. auto. Qed.
Lemma ret_live {B} (b : B) (P : B -> Prop) : P b -> live (fun r => Ok (b, r)) P.
Proof. intros H r N. left. eauto. Qed.

Lemma post_weak {B} (f : rnd -> outcome (B * rnd)) (P Q : B -> Prop) : post f P -> (forall b, P b -> Q b) -> post f Q.
Proof. intros H W r b r' N E. destruct (H r b r' N E). auto. Qed.
Lemma live_weak {B} (f : rnd -> outcome (B * rnd)) (P Q : B -> Prop) : live f P -> (forall b, P b -> Q b) -> live f Q.
Proof.
  intros H W r N. destruct (H r N) as [(b & r' & E & Pb & N')|(E & x & b & r' & Nx & E' & Pb & N')]; [left|right]; [eauto 6|].
  split; auto. exists x, b, r'. auto.
Qed.

(** ** The steps *)

Lemma rand_post n : n <> 0 -> post (rand_mod n) (fun v => 0 <= v < Z.abs n).
Proof.
  intros H [|x r] b r' N E; [discriminate|]. unfold rand_mod in E. rewrite (proj2 (Z.eqb_neq n 0)) in E by auto. injection E as <- <-.
  assert (0 <= x) by (apply N; left; auto). split; [|intros y Hy; apply N; right; auto].
  pose proof (Z.rem_bound_abs x n H). pose proof (Z.rem_nonneg x n H ltac:(auto)). lia.
Qed.

Lemma rand_post_any n : post (rand_mod n) (fun v => n <> 0 /\ 0 <= v < Z.abs n).
Proof.
  intros r b r' N E. destruct (Z.eq_dec n 0) as [->|H]; [destruct r; discriminate|].
  destruct (rand_post n H r b r' N E). auto.
Qed.

Lemma rand_frame n : frame (rand_mod n).
Proof. intros [|x r] b r' y E; [discriminate|]. unfold rand_mod in *. cbn [app]. destruct (n =? 0); [discriminate|]. injection E as <- <-. auto. Qed.

Lemma rand_live n : n <> 0 -> live (rand_mod n) (fun v => 0 <= v < Z.abs n).
Proof.
  intros H [|x r] N.
  - right. split; auto. assert (N1 : nonneg [0]) by (intros y [<-|[]]; lia). assert (E : rand_mod n ([] ++ [0]) = Ok (Z.rem 0 n, [])).
    { unfold rand_mod. cbn [app]. rewrite (proj2 (Z.eqb_neq n 0)) by auto. auto. }
    destruct (rand_post n H _ _ _ N1 E). exists [0], (Z.rem 0 n), []. auto.
  - left. assert (E : rand_mod n (x :: r) = Ok (Z.rem x n, r)).
    { unfold rand_mod. rewrite (proj2 (Z.eqb_neq n 0)) by auto. auto. }
    destruct (rand_post n H _ _ _ N E). eauto.
Qed.

(** ** Loops *)

Lemma draws_post {A B} (f : A -> rnd -> outcome (B * rnd)) (P : A -> B -> Prop) : forall l,
  (forall x, In x l -> post (f x) (P x)) -> post (draws f l) (Forall2 P l).
Proof.
  induction l as [|x l IH]; intros H; cbn [draws]; [apply ret_post; constructor|].
  apply (seqr_post (f x) (fun b r => let* q := draws f l r in let (bs, r0) := q in Ok (b :: bs, r0)) (P x)); [apply H; left; auto|].
  intros b Hb. apply (seqr_post (draws f l) (fun bs r => Ok (b :: bs, r)) (Forall2 P l)); [apply IH; intros; apply H; right; auto|].
  intros bs Hbs. apply ret_post. constructor; auto.
Qed.

Lemma draws_frame {A B} (f : A -> rnd -> outcome (B * rnd)) : forall l, (forall x, In x l -> frame (f x)) -> frame (draws f l).
Proof.
  induction l as [|x l IH]; intros H; cbn [draws]; [apply ret_frame|].
  apply (seqr_frame (f x) (fun b r => let* q := draws f l r in let (bs, r0) := q in Ok (b :: bs, r0))); [apply H; left; auto|].
  intros b. apply (seqr_frame (draws f l) (fun bs r => Ok (b :: bs, r))); [apply IH; intros; apply H; right; auto|].
  intros bs. apply ret_frame.
Qed.

Lemma draws_live {A B} (f : A -> rnd -> outcome (B * rnd)) (P : A -> B -> Prop) : forall l,
  (forall x, In x l -> frame (f x)) -> (forall x, In x l -> live (f x) (P x)) -> live (draws f l) (Forall2 P l).
Proof.
  induction l as [|x l IH]; intros F H; cbn [draws]; [apply ret_live; constructor|].
  assert (F' : frame (draws f l)) by (apply draws_frame; intros; apply F; right; auto).
  apply (seqr_live (f x) (fun b r => let* q := draws f l r in let (bs, r0) := q in Ok (b :: bs, r0)) (P x)); [apply F; left; auto|apply H; left; auto| |].
  - intros b. apply (seqr_frame (draws f l) (fun bs r => Ok (b :: bs, r))); auto. intro; apply ret_frame.
  - intros b Hb. apply (seqr_live (draws f l) (fun bs r => Ok (b :: bs, r)) (Forall2 P l)); auto.
    + apply IH; intros; [apply F|apply H]; right; auto.
    + intro; apply ret_frame.
    + intros bs Hbs. apply ret_live. constructor; auto.
Qed.

Lemma after_post {B} (f : list B -> Z -> rnd -> outcome (B * rnd)) (I : Z -> list B -> Prop) (j : Z) :
  forall k i before, j = i + Z.of_nat k ->
  (forall x bs, i <= x < j -> I x bs -> post (f bs x) (fun b => I (x + 1) (bs ++ [b]))) ->
  I i before -> post (draws_after f before (loop i j)) (I j).
Proof.
  induction k as [|k IH]; intros i before Ej H H0.
  - rewrite loop_empty by lia. cbn [draws_after]. apply ret_post. replace j with i by lia. auto.
  - rewrite loop_cons by lia. cbn [draws_after].
    apply (seqr_post (f before i) (fun b r => draws_after f (before ++ [b]) (loop (i + 1) j) r) (fun b => I (i + 1) (before ++ [b])%list)).
    + apply H; auto. lia.
    + intros b Hb. apply (IH (i + 1) (before ++ [b])%list); auto; [lia|]. intros; apply H; auto. lia.
Qed.

Lemma after_frame {A B} (f : list B -> A -> rnd -> outcome (B * rnd)) : (forall bs x, frame (f bs x)) ->
  forall l before, frame (draws_after f before l).
Proof.
  intro H. induction l as [|x l IH]; intros before; cbn [draws_after]; [apply ret_frame|].
  apply (seqr_frame (f before x) (fun b r => draws_after f (before ++ [b]) l r)); auto.
Qed.

Lemma after_live {B} (f : list B -> Z -> rnd -> outcome (B * rnd)) (I : Z -> list B -> Prop) (j : Z) : (forall bs x, frame (f bs x)) ->
  forall k i before, j = i + Z.of_nat k ->
  (forall x bs, i <= x < j -> I x bs -> live (f bs x) (fun b => I (x + 1) (bs ++ [b]))) ->
  I i before -> live (draws_after f before (loop i j)) (I j).
Proof.
  intro F. induction k as [|k IH]; intros i before Ej H H0.
  - rewrite loop_empty by lia. cbn [draws_after]. apply ret_live. replace j with i by lia. auto.
  - rewrite loop_cons by lia. cbn [draws_after].
    apply (seqr_live (f before i) (fun b r => draws_after f (before ++ [b]) (loop (i + 1) j) r) (fun b => I (i + 1) (before ++ [b])%list)); auto.
    + apply H; auto. lia.
    + intro. apply after_frame. auto.
    + intros b Hb. apply (IH (i + 1) (before ++ [b])%list); auto; [lia|]. intros; apply H; auto. lia.
Qed.

(** ** The do-while loop *)

Lemma mem_in v l : existsb (Z.eqb v) l = true <-> In v l.
Proof. rewrite existsb_exists. split; [intros (x & Hx & E); apply Z.eqb_eq in E; subst; auto|]. intro H. exists v. split; auto. apply Z.eqb_refl. Qed.

Lemma redraw_post n off before (P : Z -> Prop) : (n <> 0 -> forall i, 0 <= i < Z.abs n -> P (i + off)) ->
  forall r v b r', nonneg r -> P v -> redraw n off before v r = Ok (b, r') -> (P b /\ ~ In b before) /\ nonneg r'.
Proof.
  intro HP. induction r as [|x r IH]; intros v b r' N Pv E; cbn [redraw] in E; destruct (existsb (Z.eqb v) before) eqn:M; try discriminate.
  - injection E as <- <-. split; auto. split; auto. rewrite <- mem_in. congruence.
  - destruct (Z.eqb_spec n 0) as [->|Hn]; [discriminate|]. assert (0 <= x) by (apply N; left; auto). apply (IH _ _ _ (fun y Hy => N y (or_intror Hy))) in E; auto.
    apply HP; auto. pose proof (Z.rem_bound_abs x n Hn). pose proof (Z.rem_nonneg x n Hn ltac:(auto)). lia.
  - injection E as <- <-. split; auto. split; auto. rewrite <- mem_in. congruence.
Qed.

Lemma redraw_frame n off before v : frame (redraw n off before v).
Proof.
  intros r. revert v. induction r as [|x r IH]; intros v b r' y E; cbn [redraw] in E.
  - destruct (existsb (Z.eqb v) before) eqn:M; [discriminate|]. injection E as <- <-. cbn [app]. destruct y; cbn [redraw]; rewrite M; auto.
  - cbn [app redraw]. destruct (existsb (Z.eqb v) before) eqn:M; [|injection E as <- <-; auto]. destruct (n =? 0); [discriminate|]. apply IH; auto.
Qed.

(** There is a value that is not among fewer than [n]. *)
Lemma fresh n (before : list Z) off : Z.of_nat (length before) < n -> exists i, 0 <= i < n /\ ~ In (i + off) before.
Proof.
  intro H. destruct (existsb (fun i => negb (existsb (Z.eqb (i + off)) before)) (loop 0 n)) eqn:E.
  - apply existsb_exists in E. destruct E as (i & Hi & E). apply in_loop in Hi. exists i. split; auto. rewrite <- mem_in. destruct (existsb _ before); [discriminate|congruence].
  - exfalso. assert (I : incl (map (fun i => i + off) (loop 0 n)) before).
    { intros y Hy. apply in_map_iff in Hy. destruct Hy as (i & <- & Hi). rewrite <- mem_in.
      destruct (existsb (Z.eqb (i + off)) before) eqn:F; auto. assert (existsb (fun i => negb (existsb (Z.eqb (i + off)) before)) (loop 0 n) = true); [|congruence].
      apply existsb_exists. exists i. rewrite F. auto. }
    apply NoDup_incl_length in I.
    + rewrite map_length, loop_length in I. lia.
    + apply FinFun.Injective_map_NoDup; [intros x y; lia|]. unfold loop. apply FinFun.Injective_map_NoDup; [intros x y; lia|apply seq_NoDup].
Qed.

Lemma redraw_live n off before (P : Z -> Prop) v : (forall i, 0 <= i < n -> P (i + off)) -> Z.of_nat (length before) < n -> P v ->
  live (redraw n off before v) (fun b => P b /\ ~ In b before).
Proof.
  intros HP HF Pv r. revert v Pv. assert (Hn : n <> 0) by lia.
  assert (HP' : n <> 0 -> forall i, 0 <= i < Z.abs n -> P (i + off)) by (intros _ i Hi; apply HP; lia).
  induction r as [|x r IH]; intros v Pv N; cbn [redraw].
  - destruct (existsb (Z.eqb v) before) eqn:M.
    + right. split; auto. destruct (fresh n before off HF) as (i & Hi & Fi).
      assert (N1 : nonneg [i]) by (intros y [<-|[]]; lia).
      assert (E : redraw n off before v ([] ++ [i]) = Ok (i + off, [])).
      { cbn [app redraw]. rewrite M, (proj2 (Z.eqb_neq n 0)) by auto. rewrite Z.rem_small by auto.
        destruct (existsb (Z.eqb (i + off)) before) eqn:F; auto. apply mem_in in F. congruence. }
      destruct (redraw_post n off before P HP' _ _ _ _ N1 Pv E). exists [i], (i + off), []. auto.
    + left. exists v, []. split; auto. split; auto. split; auto. rewrite <- mem_in. congruence.
  - destruct (existsb (Z.eqb v) before) eqn:M.
    + rewrite (proj2 (Z.eqb_neq n 0)) by auto. assert (Hx : 0 <= x) by (apply N; left; auto).
      assert (Pw : P (Z.rem x n + off)). { apply HP'; auto. pose proof (Z.rem_bound_abs x n Hn). pose proof (Z.rem_nonneg x n Hn Hx). lia. }
      destruct (IH _ Pw (fun y Hy => N y (or_intror Hy))) as [H|(H & y & b & r' & Ny & E & Pb & N')]; [left; auto|right].
      split; auto. exists y, b, r'. split; auto. cbn [app redraw]. rewrite M, (proj2 (Z.eqb_neq n 0)) by auto. auto.
    + left. exists v, (x :: r). split; auto. split; auto. split; auto. rewrite <- mem_in. congruence.
Qed.

Lemma read_at_ok {A} (a : list A) i : 0 <= i < Z.of_nat (length a) -> exists x, read_at a i = Ok x /\ nth_error a (Z.to_nat i) = Some x.
Proof.
  intro H. unfold read_at. destruct (Z.ltb_spec i 0); [lia|]. destruct (nth_error a (Z.to_nat i)) eqn:E; [eauto|].
  apply nth_error_None in E. lia.
Qed.
