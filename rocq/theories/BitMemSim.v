(** * The second solver with its memory does what the model with lists does *)

From Coq Require Import Floats.SpecFloat.
From Verif Require Import Spec Outcome State ModelHeur ModelSearch ModelBuild ModelHeap HeapSpec Base Heap
  ModelBit ModelBitMem BitMemSpec BitHeap.

(** ** The relation

    [o] is an outcome of the model with lists, [om] one of the model with memory.  Nothing is asked
    if the first finds that a clause is learned that is in CLAUSELIST already. *)
Definition sim {A B} (R : A -> B -> Prop) (o : outcome A) (om : outcome B) : Prop :=
  match o with
  | Ok a => exists b, om = Ok b /\ R a b
  | Undef Aliased => True
  | Undef u => om = Undef u
  | OutOfFuel => om = OutOfFuel
  end.

Lemma sim_bind {A B A' B'} (R : A -> B -> Prop) (R' : A' -> B' -> Prop) o om f g :
  sim R o om -> (forall a b, o = Ok a -> R a b -> sim R' (f a) (g b)) -> sim R' (bind o f) (bind om g).
Proof.
  intros H K. destruct o as [a|u|]; cbn [sim bind] in *.
  - destruct H as (b & -> & H). cbn [bind]. auto.
  - destruct u; auto; rewrite H; reflexivity.
  - rewrite H. reflexivity.
Qed.
Lemma sim_same {A A' B'} (R' : A' -> B' -> Prop) (o om : outcome A) f g :
  om = o -> (forall a, o = Ok a -> sim R' (f a) (g a)) -> sim R' (bind o f) (bind om g).
Proof. intros -> K. destruct o as [a|u|]; cbn [sim bind]; auto. destruct u; reflexivity. Qed.
Lemma sim_ok {A B} (R : A -> B -> Prop) a b : R a b -> sim R (Ok a) (Ok b).
Proof. intro. exists b. auto. Qed.
Lemma sim_weak {A B} (R R' : A -> B -> Prop) o om : (forall a b, R a b -> R' a b) -> sim R o om -> sim R' o om.
Proof. intros H K. destruct o as [a|u|]; cbn [sim] in *; auto. destruct K as (b & E & K). eauto. Qed.

(** The members that are no pointers. *)
Definition bare (s : bst) : bst :=
  mkB (bnv s) (bdom s) (bcur s) (bnodes s) (fun _ => []) (bsc s) [] (fun _ => bnolit) (fun _ => bnolit) (blevel s)
    (bulist s) (buc s) (bconf s) (bcc s) (baix s) (bback s) (bdec s) (bunits s) (brest s) (btick s).

(** What is needed of the lists. *)
Definition bfine (s : bst) : Prop :=
  (forall v, NoDup (brec s v)) /\
  (forall v n, In n (brec s v) -> (n < length (bcl s))%nat /\ (fst (bw0 s n) = v \/ fst (bw1 s n) = v)).

Section Sim.
Variable ex : list (nat * cobj).

Definition rel (s : bst) (x : mst) : Prop :=
  ms x = bare s /\ (exists A, bstored (mh x) A (brec s)) /\ objects x (bcl s) (bw0 s) (bw1 s) ex /\ bfine s.

Lemma rel_set s x s' : rel s x -> brec s' = brec s -> bcl s' = bcl s -> bw0 s' = bw0 s -> bw1 s' = bw1 s -> rel s' (set_ms x (bare s')).
Proof.
  intros (E & H & O & F) E1 E2 E3 E4. unfold rel, bfine. rewrite E1, E2, E3, E4. split; [reflexivity|]. split; [exact H|]. split; [exact O|exact F].
Qed.

(** ** Clause objects *)

Lemma get_obj x cs w0 w1 n c : objects x cs w0 w1 ex -> nth_error cs n = Some c ->
  exists a, nth_error (mcl x) n = Some a /\ mo x a = Some (mkObj c (w0 n) (w1 n)).
Proof.
  intros (_ & L & O & _) E. destruct (nth_error (mcl x) n) as [a|] eqn:EA; [exists a; eauto|].
  apply nth_error_None in EA. assert (n < length cs)%nat by (apply nth_error_Some; congruence). lia.
Qed.
Lemma mget_obj x cs w0 w1 n c : objects x cs w0 w1 ex -> nth_error cs n = Some c ->
  exists a, nth_error (mcl x) n = Some a /\ mget x n = Ok (a, mkObj c (w0 n) (w1 n)).
Proof.
  intros O E. destruct (get_obj _ _ _ _ _ _ O E) as (a & EA & EM). exists a. split; auto. unfold mget, mptr, oload. rewrite EA. cbn [bind]. rewrite EM. reflexivity.
Qed.
Lemma mget_none x cs w0 w1 n : objects x cs w0 w1 ex -> nth_error cs n = None -> mptr x n = Undef OobClause /\ mget x n = Undef OobClause.
Proof.
  intros (_ & L & _) E. assert (X : nth_error (mcl x) n = None) by (apply nth_error_None; apply nth_error_None in E; lia).
  unfold mget, mptr. rewrite X. auto.
Qed.

Lemma mget_sim x s n : objects x (bcl s) (bw0 s) (bw1 s) ex ->
  sim (fun c q => nth_error (bcl s) n = Some c /\ nth_error (mcl x) n = Some (fst q) /\ snd q = mkObj c (bw0 s n) (bw1 s n)) (bget s n) (mget x n).
Proof.
  intro O. unfold bget. destruct (nth_error (bcl s) n) as [c|] eqn:E.
  - destruct (mget_obj _ _ _ _ _ _ O E) as (a & EA & ->). apply sim_ok. auto.
  - destruct (mget_none _ _ _ _ _ O E) as (_ & ->). reflexivity.
Qed.

Lemma ostore_obj x cs w0 w1 n c a l0 l1 w0' w1' : objects x cs w0 w1 ex -> nth_error cs n = Some c -> nth_error (mcl x) n = Some a ->
  w0' n = l0 -> w1' n = l1 -> (forall m, m <> n -> w0' m = w0 m /\ w1' m = w1 m) ->
  exists m, ostore x a (mkObj c l0 l1) = Ok (mkM (ms x) (mh x) m (mbrk x) (mcl x)) /\
    objects (mkM (ms x) (mh x) m (mbrk x) (mcl x)) cs w0' w1' ex.
Proof.
  intros O E EA E0 E1 EO. pose proof O as (O1 & O2 & O3 & O4 & O5). unfold ostore, oload. rewrite (O3 _ _ _ EA E). cbn [bind]. eexists. split; [reflexivity|].
  assert (ND : NoDup (mcl x)). { clear -O1. induction (mcl x) as [|y l IH]; [constructor|]. inversion O1; subst. constructor; [intro; apply H1, in_or_app; auto|auto]. }
  split; [exact O1|]. split; [exact O2|]. cbn [mcl mo mbrk]. split; [|split].
  - intros k b d EB ED. destruct (Nat.eq_dec k n) as [->|N].
    + rewrite EA in EB. injection EB as <-. rewrite E in ED. injection ED as <-. rewrite updn_same. congruence.
    + rewrite updn_other. { destruct (EO k N) as (-> & ->). eauto. }
      intros ->. apply N. assert (k < length (mcl x))%nat by (apply nth_error_Some; congruence).
      apply (proj1 (NoDup_nth_error (mcl x)) ND); congruence.
  - intros b o I. rewrite updn_other; auto. intros ->.
    apply nth_error_In in EA. apply (in_map fst) in I. cbn [fst] in I. apply in_split in EA. destruct EA as (l1' & l2' & EQ). rewrite EQ, <- app_assoc in O1.
    apply NoDup_remove_2 in O1. apply O1. apply in_or_app. right. apply in_or_app. auto.
  - intros b Hb. destruct (Nat.eq_dec b a) as [->|N]; [|rewrite updn_other in Hb by auto; auto]. apply O5. rewrite (O3 _ _ _ EA E). discriminate.
Qed.

(** ** The walk along a watch list *)

(** Between two steps: the list is in two parts, the second is still to be visited. *)
Definition halfway (key : Z) (ps ns : list nat) (s : bst) (x : mst) : Prop :=
  ms x = bare s /\ objects x (bcl s) (bw0 s) (bw1 s) ex /\ bfine s /\
  exists A ps1 ns1, bstored (mh x) A (brec s) /\ A key = ps1 ++ ps /\ brec s key = ns1 ++ ns /\ length ps1 = length ns1.

Lemma halfway_rel key ps ns s x : halfway key ps ns s x -> rel s x.
Proof. intros (E & O & F & A & ps1 & ns1 & S & _). split; auto. split; [eauto|auto]. Qed.

Lemma halfway_next key p ps n ns s x : halfway key (p :: ps) (n :: ns) s x -> halfway key ps ns s x.
Proof.
  intros (E & O & F & A & ps1 & ns1 & S & EA & EW & L). split; auto. split; auto. split; auto.
  exists A, (ps1 ++ [p]), (ns1 ++ [n]). rewrite EA, EW, <- !app_assoc, !app_length. cbn. auto.
Qed.

Lemma halfway_set key ps ns s x s' : halfway key ps ns s x -> brec s' = brec s -> bcl s' = bcl s -> bw0 s' = bw0 s -> bw1 s' = bw1 s ->
  halfway key ps ns s' (set_ms x (bare s')).
Proof.
  intros (E & O & F & H) E1 E2 E3 E4. unfold halfway, bfine. rewrite E1, E2, E3, E4. split; [reflexivity|]. split; [exact O|]. split; [exact F|exact H].
Qed.

Lemma halfway_length key ps ns s x : halfway key ps ns s x -> length ps = length ns.
Proof.
  intros (_ & _ & _ & A & ps1 & ns1 & S & EA & EW & L). destruct S as (S & _). destruct (S key) as (_ & LK).
  apply linked_length in LK. rewrite EA, EW, !app_length in LK. lia.
Qed.

Lemma halfway_load key p ps n ns s x : halfway key (p :: ps) (n :: ns) s x ->
  exists q, bload (mh x) p = Ok (mkRec n (first_or ps None) q).
Proof.
  intros (_ & _ & _ & A & ps1 & ns1 & S & EA & EW & L). destruct S as (S & _). destruct (S key) as (_ & LK).
  rewrite EA, EW in LK. apply linked_app in LK; auto. destruct LK as (_ & LK). cbn [linked] in LK. destruct LK as (M & _).
  unfold bload. rewrite M. eauto.
Qed.

Lemma bremove_mid n : forall ns1 ns2, ~ In n ns1 -> bremove n (ns1 ++ n :: ns2) = ns1 ++ ns2.
Proof.
  induction ns1 as [|m ns1 IH]; intros ns2 H; cbn [bremove app].
  - rewrite Nat.eqb_refl. reflexivity.
  - destruct (Nat.eqb_spec m n) as [->|N]; [destruct H; left; auto|]. rewrite IH by (intro; apply H; right; auto). reflexivity.
Qed.

Lemma bfind_other s w : forall c l, bfind s w c = Ok (Some l) -> fst l <> fst w.
Proof.
  induction c as [|k c IH]; intros l H; cbn [bfind] in H; [discriminate|].
  destruct (bsat s k) as [r| |]; cbn [bind] in H; try discriminate.
  destruct (Z.eqb_spec (fst k) (fst w)) as [Ew|N]; destruct r; eauto; injection H as <-; auto.
Qed.

Lemma flip_fine n s : bfine s -> bfine (bflip n s).
Proof.
  intros (F1 & F2). split; [exact F1|]. intros v m I. destruct (F2 v m I) as (B & W). split; auto. unfold bflip. cbn [bw0 bw1 set_bw0 set_bw1].
  destruct (Nat.eq_dec m n) as [->|N]; [rewrite !updn_same; tauto|rewrite !updn_other by auto; tauto].
Qed.

Lemma flip_sim key ps ns s x n c : halfway key ps ns s x -> nth_error (bcl s) n = Some c ->
  exists x', m_flip n x = Ok x' /\ halfway key ps ns (bflip n s) x'.
Proof.
  intros (E & O & F & H) EC. unfold m_flip. destruct (mget_obj _ _ _ _ _ _ O EC) as (a & EA & ->). cbn [bind o_atoms o_w0 o_w1].
  destruct (ostore_obj x (bcl s) (bw0 s) (bw1 s) n c a (bw1 s n) (bw0 s n) (bw0 (bflip n s)) (bw1 (bflip n s)) O EC EA) as (m & E1 & O1).
  - cbn. apply updn_same.
  - cbn. apply updn_same.
  - intros k N. cbn. rewrite !updn_other by auto. auto.
  - eexists. split; [exact E1|]. split; [exact E|]. split; [exact O1|]. split; [apply flip_fine; auto|exact H].
Qed.

Lemma swap_sim key p ps n ns s x : halfway key (p :: ps) (n :: ns) s x -> fst (bw0 s n) = key -> bvar s key = Ok tt ->
  sim (halfway key ps ns) (bswap key n s) (m_swap p x).
Proof.
  intros HW EK BV. destruct (halfway_load _ _ _ _ _ _ _ HW) as (q & EL). pose proof HW as (E & O & F & A & ps1 & ns1 & S & EA & EW & L).
  unfold bswap, m_swap. rewrite EL. cbn [bind c_num]. eapply sim_bind; [apply mget_sim; eauto|].
  intros c [ad o] _ (EC & EP & EO). cbn [fst snd] in *. subst o. cbn [o_w0 o_w1 o_atoms]. rewrite E.
  apply sim_same; [reflexivity|]. intros y _.
  assert (CONF : sim (halfway key ps ns) (Ok (set_bcc (set_bconf s true) n)) (Ok (set_ms x (set_bcc (set_bconf (bare s) true) n)))).
  { apply sim_ok. apply (halfway_set key ps ns s x (set_bcc (set_bconf s true) n)); auto. eapply halfway_next; eauto. }
  destruct y; auto.
  apply sim_same; [clear; induction c as [|k c IH]; cbn [bfind]; auto; change (bsat (bare s) k) with (bsat s k); rewrite IH; auto|].
  intros [l|] El.
  2:{ apply sim_ok. apply (halfway_set key ps ns s x (set_bulist s (n :: bulist s))); auto. eapply halfway_next; eauto. }
  rewrite EK, Z.eqb_refl. change (bvar (bare s) key) with (bvar s key). rewrite BV. cbn [bind].
  destruct (bremove_bstored (mh x) A (brec s) key ps1 p ps ns1 n ns S EA EW L) as (h1 & E1 & _ & S1). rewrite E1. cbn [bind].
  pose proof (proj1 F key) as ND. rewrite EW in ND. pose proof (NoDup_remove_2 _ _ _ ND) as NI. pose proof (NoDup_remove_1 _ _ _ ND) as ND2.
  rewrite EW, bremove_mid by (intro; apply NI, in_or_app; auto).
  unfold badd_record, m_add. cbn [ms set_mh set_brec brec]. rewrite E. change (bvar (bare s) (fst l)) with (bvar s (fst l)).
  change (bvar (set_brec s (upd1 (brec s) key (ns1 ++ ns))) (fst l)) with (bvar s (fst l)).
  destruct (bvar s (fst l)) as [[]|u|] eqn:BL; cbn [bind]; [|unfold bvar in BL; destruct (_ && _); try discriminate; injection BL as <-; reflexivity|unfold bvar in BL; destruct (_ && _); discriminate].
  cbn [mh set_mh]. destruct (badd_bstored h1 _ _ (fst l) n S1) as (h2 & E2 & S2). rewrite E2. cbn [bind].
  set (x2 := set_mh (set_mh x h1) h2).
  assert (OX : mo x2 ad = Some (mkObj c (bw0 s n) (bw1 s n))). { destruct O as (_ & _ & O3 & _). cbn. eauto. }
  unfold oload. rewrite OX. cbn [bind o_atoms o_w1].
  set (W2 := upd1 (upd1 (brec s) key (ns1 ++ ns)) (fst l) (n :: upd1 (brec s) key (ns1 ++ ns) (fst l))).
  set (s2 := set_bw0 (set_brec (set_brec s (upd1 (brec s) key (ns1 ++ ns))) W2) (updn (bw0 s) n l)).
  destruct (ostore_obj x2 (bcl s) (bw0 s) (bw1 s) n c ad l (bw1 s n) (updn (bw0 s) n l) (bw1 s)) as (m & E3 & O3); auto.
  { apply updn_same. } { intros k N. rewrite updn_other; auto. }
  apply bfind_other in El.
  assert (FR : ~ In n (upd1 (brec s) key (ns1 ++ ns) (fst l))).
  { destruct (Z.eqb_spec (fst l) key) as [->|N]; [rewrite upd1_same; auto|]. rewrite upd1_other by auto. intro I.
    apply F in I. destruct I as (_ & [I|I]); congruence. }
  assert (F2 : bfine s2).
  { destruct F as (G1 & G2). split.
    - intro v. cbn [s2 brec set_bw0 set_brec]. unfold W2. destruct (Z.eqb_spec v (fst l)) as [->|N].
      + rewrite upd1_same. constructor; auto. destruct (Z.eqb_spec (fst l) key) as [->|N2]; [rewrite upd1_same; auto|]. rewrite upd1_other by auto. auto.
      + rewrite upd1_other by auto. destruct (Z.eqb_spec v key) as [->|N2]; [rewrite upd1_same; auto|]. rewrite upd1_other by auto. auto.
    - intros v k I. cbn [s2 brec set_bw0 set_brec bcl bw0 bw1] in *.
      assert (OLD : In k (brec s v) -> (v = key -> k <> n) -> (k < length (bcl s))%nat /\ (fst (updn (bw0 s) n l k) = v \/ fst (bw1 s k) = v)).
      { intros J K. destruct (G2 v k J) as (B & D). split; auto. destruct (Nat.eq_dec k n) as [->|N].
        - rewrite updn_same. destruct D as [D|D]; [exfalso; apply K; congruence|auto].
        - rewrite updn_other by auto. auto. }
      assert (SUB : forall v', In k (upd1 (brec s) key (ns1 ++ ns) v') -> In k (brec s v') /\ (v' = key -> k <> n)).
      { intros v' J. destruct (Z.eqb_spec v' key) as [->|N].
        - rewrite upd1_same in J. split; [|intros _ ->; auto]. rewrite EW. apply in_app_or in J. apply in_or_app. destruct J; auto. right; right; auto.
        - rewrite upd1_other in J by auto. split; auto. }
      unfold W2 in I. destruct (Z.eqb_spec v (fst l)) as [->|N].
      + rewrite upd1_same in I. destruct I as [<-|I].
        * split; [|left; rewrite updn_same; auto]. assert (X : In n (brec s key)) by (rewrite EW; apply in_or_app; right; left; auto).
          apply (G2 key n X).
        * apply SUB in I. apply OLD; tauto.
      + rewrite upd1_other in I by auto. apply SUB in I. apply OLD; tauto. }
  cbn [bind]. rewrite E3. apply sim_ok. change (halfway key ps ns s2 (mkM (ms x2) (mh x2) m (mbrk x2) (mcl x2))).
  split; [exact E|]. split; [exact O3|]. split; [exact F2|]. unfold blists_add in S2.
  destruct (Z.eqb_spec key (fst l)) as [KL|N].
  - eexists _, (bbrk h1 :: ps1), (n :: ns1). split; [exact S2|]. cbn [s2 brec set_bw0 set_brec]. unfold W2. rewrite <- KL, !upd1_same. repeat split; auto. cbn. lia.
  - eexists _, ps1, ns1. split; [exact S2|]. cbn [s2 brec set_bw0 set_brec]. unfold W2.
    rewrite (upd1_other _ (fst l) _ key), (upd1_other _ (fst l) _ key), !upd1_same by auto. auto.
Qed.

Lemma bsat_var s l y : bsat s l = Ok y -> bvar s (fst l) = Ok tt.
Proof. unfold bsat. destruct (bvar s (fst l)) as [[]| |]; cbn [bind]; auto; discriminate. Qed.

Lemma visit_sim key p ps n ns s x : halfway key (p :: ps) (n :: ns) s x -> sim (halfway key ps ns) (bvisit key n s) (m_visit key p x).
Proof.
  intros HW. destruct (halfway_load _ _ _ _ _ _ _ HW) as (q & EL). pose proof HW as (E & O & F & A & ps1 & ns1 & S & EA & EW & L).
  assert (IN : In n (brec s key)) by (rewrite EW; apply in_or_app; right; left; auto).
  unfold bvisit, m_visit. rewrite EL. cbn [bind c_num]. eapply sim_bind; [apply mget_sim; eauto|].
  intros c [ad o] _ (EC & EP & EO). cbn [fst snd] in *. subst o. cbn [o_w0 o_w1 o_atoms]. rewrite E.
  pose proof (halfway_next _ _ _ _ _ _ _ HW) as NX.
  apply sim_same; [reflexivity|]. intros y EY.
  assert (REST : sim (halfway key ps ns)
    (let* y0 := bsat s (bw1 s n) in
     match y0 with
     | SatTrue => Ok (bflip n s)
     | _ => let s := if fst (bw1 s n) =? key then bflip n s else s in
            let* z := bsat s (bw0 s n) in match z with SatFalse => bswap key n s | _ => Ok s end
     end)
    (let* y0 := bsat (bare s) (bw1 s n) in
     match y0 with
     | SatTrue => m_flip n x
     | _ => let* x := if fst (bw1 s n) =? key then m_flip n x else Ok x in
            let* q := mget x n in
            let* z := bsat (ms x) (o_w0 (snd q)) in match z with SatFalse => m_swap p x | _ => Ok x end
     end)).
  { apply sim_same; [reflexivity|]. intros y0 EY0.
    assert (FL : sim (halfway key ps ns) (Ok (bflip n s)) (m_flip n x)).
    { destruct (flip_sim _ _ _ _ _ _ _ NX EC) as (x' & -> & H'). apply sim_ok; auto. }
    assert (AFTER : forall s1 x1, halfway key (p :: ps) (n :: ns) s1 x1 -> nth_error (bcl s1) n = Some c -> fst (bw0 s1 n) = key ->
       sim (halfway key ps ns) (let* z := bsat s1 (bw0 s1 n) in match z with SatFalse => bswap key n s1 | _ => Ok s1 end)
         (let* q := mget x1 n in let* z := bsat (ms x1) (o_w0 (snd q)) in match z with SatFalse => m_swap p x1 | _ => Ok x1 end)).
    { intros s1 x1 H1 EC1 K1. pose proof H1 as (E1 & O1 & _). destruct (mget_obj _ _ _ _ _ _ O1 EC1) as (a1 & _ & ->). cbn [bind snd o_w0]. rewrite E1.
      apply sim_same; [reflexivity|]. intros z EZ. pose proof (bsat_var _ _ _ EZ) as BV. rewrite K1 in BV.
      destruct z; try (apply sim_ok; eapply halfway_next; eauto). apply swap_sim; auto. }
    assert (BR : sim (halfway key ps ns)
      (let s := if fst (bw1 s n) =? key then bflip n s else s in let* z := bsat s (bw0 s n) in match z with SatFalse => bswap key n s | _ => Ok s end)
      (let* x := if fst (bw1 s n) =? key then m_flip n x else Ok x in
            let* q := mget x n in
            let* z := bsat (ms x) (o_w0 (snd q)) in match z with SatFalse => m_swap p x | _ => Ok x end)).
    { cbv zeta. destruct (Z.eqb_spec (fst (bw1 s n)) key) as [K|K].
      - destruct (flip_sim _ _ _ _ _ _ _ HW EC) as (x' & -> & H'). cbn [bind]. apply AFTER; auto. cbn. rewrite updn_same. auto.
      - cbn [bind]. apply AFTER; auto. destruct (proj2 F key n IN) as (_ & [W|W]); congruence. }
    destruct y0; auto. }
  destruct y; try exact REST. apply sim_ok; auto.
Qed.

Lemma walk_sim key : forall ns ps s x fuel, halfway key ps ns s x -> (length ps <= fuel)%nat ->
  sim rel (bupdate key ns s) (m_walk fuel key x (first_or ps None)).
Proof.
  induction ns as [|n ns IH]; intros ps s x fuel H B.
  - pose proof (halfway_length _ _ _ _ _ H) as L. destruct ps; [|discriminate]. cbn [bupdate first_or].
    destruct fuel; apply sim_ok; eapply halfway_rel; eauto.
  - pose proof (halfway_length _ _ _ _ _ H) as L. destruct ps as [|p ps]; [discriminate|]. cbn [first_or].
    pose proof H as (E & _). cbn [bupdate]. destruct (bconf s) eqn:C.
    + destruct fuel; cbn [m_walk]; rewrite E; cbn [bare bconf]; rewrite C; apply sim_ok; eapply halfway_rel; eauto.
    + destruct fuel as [|fuel]; [cbn in B; lia|]. cbn [m_walk]. rewrite E. cbn [bare bconf]. rewrite C.
      destruct (halfway_load _ _ _ _ _ _ _ H) as (q & ->). cbn [bind r_next].
      eapply sim_bind; [apply visit_sim; eauto|]. intros s' x' _ H'. apply IH; auto. cbn in B. lia.
Qed.

Lemma update_sim v s x : rel s x -> sim rel (bupdate v (brec s v) s) (m_update v x).
Proof.
  intros (E & (A & S) & O & F). unfold m_update. pose proof S as (S1 & S2 & _). rewrite (proj1 (S1 v)). apply walk_sim.
  - split; auto. split; auto. split; auto. exists A, [], []. auto.
  - rewrite <- (seq_length (bbrk (mh x)) 0). apply NoDup_incl_length; auto. intros p I. apply in_seq. pose proof (bstored_below _ _ _ _ _ S I). lia.
Qed.

Lemma rel_form s x : rel s x -> x = set_ms x (bare s).
Proof. intros (E & _). destruct x; cbn in *; subst; auto. Qed.

Lemma reduce_sim s x l : rel s x -> sim rel (breduce s l) (m_reduce x l).
Proof.
  intros R. unfold breduce, m_reduce. rewrite (proj1 R). apply sim_same; [reflexivity|]. intros [] _. cbn [bare bcur].
  destruct (Z.ldiff (bcur s (fst l)) (snd l) =? 0); [apply sim_ok; auto|].
  cbv zeta. match goal with |- sim _ (bupdate _ (brec ?s' _) _) _ => set (s1 := s') end.
  apply (update_sim (fst l) s1 (set_ms x (bare s1))). eapply rel_set; eauto.
Qed.

Lemma prop_sim : forall fuel s x, rel s x -> sim rel (bprop fuel s) (m_prop fuel x).
Proof.
  induction fuel as [|f IH]; intros s x R; [reflexivity|]. cbn [bprop m_prop]. rewrite (proj1 R). cbn [bare bconf bulist].
  destruct (bconf s). { apply sim_ok. apply (rel_set s x (set_bulist s [])); auto. }
  destruct (bulist s) as [|n rest] eqn:EU; [apply sim_ok; auto|].
  set (s1 := set_bulist (set_buc s (Some n)) rest). change (set_bulist (set_buc (bare s) (Some n)) rest) with (bare s1).
  assert (R1 : rel s1 (set_ms x (bare s1))) by (eapply rel_set; eauto). clearbody s1. clear R EU. set (x1 := set_ms x (bare s1)) in *. clearbody x1.
  assert (K : forall l, sim rel (let* s0 := breduce s1 l in bprop f (set_bunits s0 (bunits s0 + 1)))
                (let* x := m_reduce x1 l in m_prop f (set_ms x (set_bunits (ms x) (bunits (ms x) + 1))))).
  { intro l. eapply sim_bind; [apply reduce_sim; auto|]. intros s2 x2 _ R2. apply IH. rewrite (proj1 R2).
    apply (rel_set s2 x2 (set_bunits s2 (bunits s2 + 1))); auto. }
  pose proof R1 as (E & _ & O & _).
  eapply sim_bind; [apply mget_sim; eauto|]. intros c [ad o] _ (EC & EP & EO). cbn [fst snd] in *. subst o. cbn [o_w0 o_w1 o_atoms]. rewrite E.
  apply sim_same; [reflexivity|]. intros y _.
  assert (G : sim rel (if Nat.ltb 1 (length c) then let* y := bsat s1 (bw1 s1 n) in match y with SatUn => let* s := breduce s1 (bw1 s1 n) in bprop f (set_bunits s (bunits s + 1)) | _ => bprop f s1 end else bprop f s1)
    (if Nat.ltb 1 (length c) then let* y := bsat (bare s1) (bw1 s1 n) in match y with SatUn => let* x := m_reduce x1 (bw1 s1 n) in m_prop f (set_ms x (set_bunits (ms x) (bunits (ms x) + 1))) | _ => m_prop f x1 end else m_prop f x1)).
  { destruct (Nat.ltb 1 (length c)); [|apply IH; auto]. apply sim_same; [reflexivity|]. intros y' _. destruct y'; try (apply IH; auto). apply K. }
  destruct y; try exact G. apply K.
Qed.

(** ** Choices and verification *)

Lemma lazy_sim s x : rel s x -> bchoose_lazy s (seq 0 (length (bcl s))) = m_choose_lazy x (mcl x).
Proof.
  intros (E & _ & (_ & L & O & _) & _). rewrite <- L.
  assert (G : forall l k, (forall n a, nth_error l n = Some a -> nth_error (mcl x) (k + n) = Some a) ->
    bchoose_lazy s (seq k (length l)) = m_choose_lazy x l).
  { induction l as [|a l IH]; intros k H; [reflexivity|]. cbn [length seq bchoose_lazy m_choose_lazy].
    assert (HA : nth_error (mcl x) k = Some a) by (rewrite <- (Nat.add_0_r k); apply H; reflexivity).
    destruct (nth_error (bcl s) k) as [c|] eqn:EC.
    2:{ apply nth_error_None in EC. assert (k < length (mcl x))%nat by (apply nth_error_Some; congruence). lia. }
    unfold oload. rewrite (O _ _ _ HA EC). cbn [bind o_w0]. rewrite E. change (bsat (bare s) (bw0 s k)) with (bsat s (bw0 s k)).
    destruct (bsat s (bw0 s k)) as [y| |]; cbn [bind]; auto. rewrite (IH (S k)); [destruct y; auto|].
    intros n b Hn. replace (S k + n)%nat with (k + S n)%nat by lia. apply H. auto. }
  apply (G _ 0%nat). auto.
Qed.

Lemma choose_sim c s x : rel s x -> sim (fun a b => rel (fst a) (fst b) /\ snd a = snd b) (bchoose c s) (m_choose c x).
Proof.
  intros R. unfold bchoose, m_choose. destruct (bvsids c).
  - unfold bchoose_vsids. rewrite (proj1 R).
    assert (EQ : bscore_var (bare s) = bscore_var s) by (unfold bscore_var, bscore_step; cbn [bare bcur bdom bsc]; reflexivity). rewrite EQ. change (bnv (bare s)) with (bnv s).
    destruct (foldM _ _ _) as [best|u|] eqn:EF; cbn [bind]; [|destruct u; reflexivity|reflexivity].
    apply sim_ok. cbn [fst snd]. split; auto. apply (rel_set s x (set_buc s None)); auto.
  - rewrite (lazy_sim s x R). apply sim_same; auto. intros l _. apply sim_ok. auto.
Qed.

Lemma verify_sim s x : rel s x -> bverify s = m_verify x.
Proof.
  intros (E & _ & (_ & L & O & _) & _). unfold bverify, m_verify.
  assert (CL : forall c, bverify_clause (bare s) c = bverify_clause s c).
  { induction c as [|l c IH]; [reflexivity|]. cbn [bverify_clause]. rewrite IH. reflexivity. }
  assert (G : forall cs l, length l = length cs -> (forall n a c, nth_error l n = Some a -> nth_error cs n = Some c -> exists o, mo x a = Some o /\ o_atoms o = c) ->
    bverify_clauses s cs = m_verify_clauses x l).
  { induction cs as [|c cs IH]; intros [|a l] LL H; try discriminate; [reflexivity|]. cbn [bverify_clauses m_verify_clauses].
    destruct (H 0%nat a c eq_refl eq_refl) as (o & E1 & E2). unfold oload. rewrite E1. cbn [bind]. rewrite E, CL, E2.
    destruct (bverify_clause s c) as [b| |]; cbn [bind]; auto. destruct b; auto. apply IH; [auto|]. intros n a' c' Ha Hc. apply (H (S n)); auto. }
  apply G; auto. intros n a c Ha Hc. eexists. split; [eapply O; eauto|reflexivity].
Qed.

End Sim.
