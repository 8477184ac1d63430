(** * One operation of a client over nested values. *)

From stdpp Require Import base gmap list.
From Verif Require Import Lang Common Client Spec Rep RunLemmas Headers Hist Tree TreeProps TreeAssign TreeAssignC.
From Verif Require Import TreeMove TreeMoveAssign TreeSub TreeClient TreePlace TreeForest TreeOps TreeUp.
From Verif Require Import Indirect20 Indirect14 Polymorphic20 Polymorphic14.

Section tree.
Context {E : Env} (Sh : Shape E).
Notation A := (eA E).
Notation V := (eV E).
Notation wst := (option (tree E) * A)%type.
Notation forest := (gmap nat (header * wst)).
Implicit Types s : store E.
Implicit Types F : forest.
Notation wrap_heap := (wrap_heap Sh).
Notation mem_heap := (mem_heap Sh).
Notation nodeTP := (nodeTP Sh).
Notation node_impl := (node_impl Sh).
Notation forest_heap := (forest_heap Sh).
Notation at_path := (at_path Sh).
Notation at_place := (at_place Sh).
Notation holds := (holds Sh).

(** ** Depth *)
Lemma fits_mono n m (T : option (tree E)) : n <= m -> fits n T -> fits m T.
Proof. induction 1; [done|]. intros. by apply fits_S, IHle. Qed.

Lemma fits_none n : fits n (None : option (tree E)).
Proof. by destruct n. Qed.
Hint Resolve fits_none : core.

Lemma at_path_fits p n k k' : at_path k p = Some k' -> fits n k.1 -> fits n k'.1.
Proof.
  revert n k. induction p as [|[i h] p IH]; intros n k; cbn; [by intros [= ->]|].
  destruct k as [[[t v ks]|] a]; [|done]. cbn. case_decide; [|done].
  destruct (ks !! i) as [ki|] eqn:Hi; [|done]. intros Hp Hf. destruct n as [|n]; [done|].
  apply fits_S, (IH n ki Hp). eapply (Forall_lookup_1 _ _ _ _ Hf Hi).
Qed.
Lemma put_fits p n m (k k' : wst) : fits n k.1 -> fits m k'.1 -> fits (n + m) (put k p k').1.
Proof.
  revert n k. induction p as [|[i h] p IH]; intros n k Hk Hk'; cbn; [by eapply (fits_mono m); [lia|]|].
  destruct k as [[[t v ks]|] a]; [|by apply fits_none]. cbn in *. destruct n as [|n]; [done|]. cbn.
  apply Forall_lookup. intros j kj Hj. destruct (decide (i = j)) as [<-|Hne].
  - rewrite list_lookup_alter in Hj. destruct (ks !! i) as [ki|] eqn:Hi; [|done]. injection Hj as <-.
    apply IH; [|done]. eapply (Forall_lookup_1 _ _ _ _ Hk Hi).
  - rewrite list_lookup_alter_ne in Hj by done. eapply (fits_mono n); [lia|]. eapply (Forall_lookup_1 _ _ _ _ Hk Hj).
Qed.

Lemma at_place_fits F π n k : at_place F π = Some k -> all_fit n F -> fits n k.1.
Proof.
  intros (k0 & H0 & H1)%at_place_inv HF. eapply at_path_fits; [exact H1|]. by apply (HF _ _ H0).
Qed.
Lemma put_place_fits F π n m k : all_fit n F -> fits m k.1 -> all_fit (n + m) (put_place F π k).
Proof.
  intros HF Hk y [h ky] Hy. unfold put_place in Hy. destruct (decide (pl_var π = y)) as [<-|Hne].
  - rewrite lookup_alter in Hy. destruct (F !! pl_var π) as [[h0 k0]|] eqn:H0; [|done]. injection Hy as <- <-. cbn.
    apply put_fits; [|done]. by apply (HF _ _ H0).
  - rewrite lookup_alter_ne in Hy by done. eapply (fits_mono n); [lia|]. by apply (HF _ _ Hy).
Qed.
Lemma insert_fits F x n h k : all_fit n F -> fits n k.1 -> all_fit n (<[x := (h, k)]> F).
Proof. intros HF Hk. by apply map_Forall_insert_2. Qed.
Lemma all_fit_le n m F : n <= m -> all_fit n F -> all_fit m F.
Proof. intros Hnm HF y hk Hy. eapply fits_mono; [exact Hnm|]. by apply (HF _ _ Hy). Qed.

Scheme casg_failed_mind := Induction for TreeAssign.casg_failed Sort Prop
  with asg_part_mind := Induction for TreeAssign.asg_part Sort Prop
  with kids_part_mind := Induction for TreeAssign.kids_part Sort Prop.

Lemma casg_failed_fits c d k d' : casg_failed Sh c d k d' -> forall n, fits n d.1 -> fits n k.1 -> fits n d'.1.
Proof.
  intros H. refine (casg_failed_mind E Sh
    (fun c d k d' _ => forall n, fits n d.1 -> fits n k.1 -> fits n d'.1)
    (fun T D D' _ => forall n, fits n (Some D) -> fits n (Some T) -> fits n (Some D'))
    (fun hs i ks ds ds' _ => forall n, Forall (fun k => fits n k.1) ds -> Forall (fun k => fits n k.1) ks ->
       Forall (fun k => fits n k.1) ds') _ _ _ _ _ _ _ _ _ _ H).
  - done.
  - intros c0 D ad T ak D' _ _ IH n. apply IH.
  - intros t v ks v0 ds [|n]; done.
  - intros t v ks v0 ds ds' _ IH [|n]; [done|]. apply IH.
  - intros hs i k0 ks d0 ds d0' _ IH n Hd Hk. inversion Hd; inversion Hk; subst. constructor; [by apply IH|done].
  - intros hs i k0 ks d0 ds ds' _ IH n Hd Hk. inversion Hd; inversion Hk; subst. constructor; [by apply asg_w_fits|by apply IH].
Qed.

(** ** Variables moved into a new value *)
Lemma args_of_delete F y ws : WVar y ∉ ws -> args_of (delete y F) ws = args_of F ws.
Proof.
  induction ws as [|w ws IH]; [done|]. intros [Hw Hws]%not_elem_of_cons. unfold args_of in *. cbn.
  destruct w as [z|l i]; [|by apply IH].
  rewrite lookup_delete_ne by congruence. rewrite IH by done. done.
Qed.
Lemma args_moved_ne F y ws : WVar y ∉ ws -> args_moved F ws !! y = F !! y.
Proof.
  induction ws as [|w ws IH]; [done|]. intros [Hw Hws]%not_elem_of_cons. cbn.
  destruct w as [z|l i]; [|by apply IH]. rewrite lookup_alter_ne by congruence. by apply IH.
Qed.
Lemma args_moved_none F y ws : F !! y = None -> args_moved F ws !! y = None.
Proof.
  intros Hy. induction ws as [|w ws IH]; [done|]. cbn. destruct w as [z|l i]; [|done].
  destruct (decide (z = y)) as [->|Hne]; [rewrite lookup_alter|by rewrite lookup_alter_ne].
  fold (args_moved F ws). by rewrite IH.
Qed.
Lemma args_moved_delete F y ws : WVar y ∉ ws -> delete y (args_moved F ws) = args_moved (delete y F) ws.
Proof.
  induction ws as [|w ws IH]; [done|]. intros [Hw Hws]%not_elem_of_cons. cbn.
  destruct w as [z|l i]; [|by apply IH].
  fold (args_moved F ws) (args_moved (delete y F) ws). rewrite <- IH by done. apply map_eq. intros j.
  destruct (decide (j = y)) as [->|Hj].
  - rewrite lookup_delete, lookup_alter_ne by congruence. by rewrite lookup_delete.
  - rewrite lookup_delete_ne by done. destruct (decide (z = j)) as [->|Hzj].
    + by rewrite !lookup_alter, lookup_delete_ne by done.
    + by rewrite !lookup_alter_ne, lookup_delete_ne by done.
Qed.

Lemma args_of_length F (hs : nat -> header) ws i :
  (forall j w, ws !! j = Some w -> exists y k, w = WVar y /\ F !! y = Some (hs (i + j), k)) ->
  length (args_of F ws) = length ws.
Proof.
  revert i. induction ws as [|w ws IH]; intros i Hws; [done|].
  destruct (Hws 0 w eq_refl) as (y & k & -> & Hy). unfold args_of in *. cbn. rewrite Hy. cbn. f_equal.
  apply (IH (S i)). intros j w' Hj. specialize (Hws (S j) w' Hj). by rewrite <- plus_n_Sm in Hws.
Qed.
Lemma args_of_fits F n ws : all_fit n F -> Forall (fun k : wst => fits n k.1) (args_of F ws).
Proof.
  intros HF. unfold args_of. induction ws as [|w ws IH]; cbn; [constructor|].
  destruct w as [y|l i]; [|done]. destruct (F !! y) as [[h k]|] eqn:Hy; cbn; [|done].
  constructor; [by apply (HF _ _ Hy)|done].
Qed.
Lemma args_moved_fits F n ws : all_fit n F -> all_fit n (args_moved F ws).
Proof.
  intros HF. induction ws as [|w ws IH]; cbn; [done|]. destruct w as [y|l i]; [|done].
  intros z [h k] Hz. destruct (decide (y = z)) as [<-|Hne].
  - rewrite lookup_alter in Hz. fold (args_moved F ws) in Hz. destruct (args_moved F ws !! y); [|done]. injection Hz as <- <-. apply fits_none.
  - rewrite lookup_alter_ne in Hz by done. by apply (IH _ _ Hz).
Qed.

Lemma args_take (hs : nat -> header) (nm : nat -> wl) ws i F B W :
  forest_heap F B W -> NoDup ws -> (forall j w, ws !! j = Some w -> nm (i + j) = w) ->
  (forall j w, ws !! j = Some w -> exists y k, w = WVar y /\ F !! y = Some (hs (i + j), k)) ->
  exists B1 W1 R S, mem_heap hs nm i (args_of F ws) B1 W1 /\ B = B1 ∪ R /\ W = W1 ∪ S /\ B1 ##ₘ R /\ W1 ##ₘ S /\
    forall B' W', mem_heap hs nm i (map emptied (args_of F ws)) B' W' -> B' ##ₘ R -> W' ##ₘ S ->
      forest_heap (args_moved F ws) (B' ∪ R) (W' ∪ S).
Proof.
  revert i F B W. induction ws as [|w ws IH]; intros i F B W HF Hnd Hnm Hws.
  - exists ∅, ∅, B, W. split_and!; [constructor|clear; map_solve|clear; map_solve|clear; map_solve|clear; map_solve|].
    intros B' W' Hm _ _. apply mem_nil_inv in Hm as [-> ->].
    by rewrite !(left_id_L ∅ (∪)).
  - apply NoDup_cons in Hnd as [Hw Hnd]. destruct (Hws 0 w eq_refl) as (y & k & -> & Hy).
    assert (Hi := Hnm 0 _ eq_refl). rewrite Nat.add_0_r in Hy, Hi.
    destruct (forest_take Sh F B W y _ k HF Hy) as (B1 & W1 & R & S & Hh & HF' & -> & -> & D1 & D2).
    destruct (IH (Datatypes.S i) (delete y F) R S HF' Hnd) as (B2 & W2 & R2 & S2 & Hm & -> & -> & D3 & D4 & Hput).
    { intros j w Hj. specialize (Hnm (Datatypes.S j) w Hj). by rewrite <- plus_n_Sm in Hnm. }
    { intros j w Hj. destruct (Hws (Datatypes.S j) w Hj) as (z & kz & -> & Hz). exists z, kz. split; [done|].
      rewrite lookup_delete_ne; [by rewrite <- plus_n_Sm in Hz|]. intros ->. apply Hw. by apply elem_of_list_lookup_2 in Hj. }
    rewrite args_of_delete in * by done.
    assert (Hargs : args_of F (WVar y :: ws) = k :: args_of F ws) by (unfold args_of; cbn; by rewrite Hy).
    rewrite Hargs. exists (B1 ∪ B2), (W1 ∪ W2), R2, S2. split_and!.
    + constructor; [by rewrite Hi|done|clear - D1; map_solve|clear - D2; map_solve].
    + by rewrite (assoc_L (∪)).
    + by rewrite (assoc_L (∪)).
    + clear - D1 D3. map_solve.
    + clear - D2 D4. map_solve.
    + intros B' W' Hm' D5 D6. cbn [map] in Hm'.
      apply mem_cons_inv in Hm' as (B3 & W3 & B4 & W4 & -> & -> & D7 & D8 & H3 & H4).
      specialize (Hput B4 W4 H4). feed specialize Hput; [clear - D5; map_solve|clear - D6; map_solve|].
      cbn [args_moved foldr]. fold (args_moved F ws).
      assert (Hal : alter (fun hk : header * wst => (hk.1, emptied hk.2)) y (args_moved F ws) =
                    <[y := (hs i, emptied k)]> (args_moved F ws)).
      { apply map_eq. intros j. destruct (decide (y = j)) as [<-|Hne].
        - by rewrite lookup_alter, lookup_insert, args_moved_ne, Hy.
        - by rewrite lookup_alter_ne, lookup_insert_ne. }
      rewrite Hal, <- !(assoc_L (∪)). apply forest_put.
      * by rewrite args_moved_delete.
      * by rewrite <- Hi.
      * clear - D5 D7. map_solve.
      * clear - D6 D8. map_solve.
Qed.

(** ** Other facts about forests *)
Lemma forest_fresh F B W x : forest_heap F B W -> F !! x = None -> W !! WVar x = None.
Proof.
  induction 1 as [|y h k F B1 W1 B2 W2 Hy Hw HF IH DB DW]; intros Hx; [done|].
  destruct (decide (y = x)) as [->|Hne]; [by rewrite lookup_insert in Hx|].
  rewrite lookup_insert_ne in Hx by done. rewrite lookup_un, (IH Hx).
  destruct (W1 !! WVar x) as [q|] eqn:Hq; [|done]. exfalso.
  destruct (wrap_dom Sh h (WVar y) k B1 W1 Hw (WVar x)) as [?|(l & i & ? & _)]; [by eexists|congruence|done].
Qed.

Lemma holds_eq F s B W : forest_heap F B W -> blocks s = B -> wraps s = W -> holds F s.
Proof. intros H <- <-. done. Qed.

Lemma holds_same F s s' : holds F s -> same s s' -> holds F s'.
Proof. intros H [H1 H2 _]. by eapply holds_eq. Qed.

Lemma run_quiet p s : run (quiet p) s =
  match run p s with ORet _ s' => ORet (@ObsUnit E) s' | OThrow e s' => OThrow e s' | OUB u => OUB u | OTerm => OTerm end.
Proof. unfold quiet. rewrite run_bind. by destruct (run p s). Qed.


(** ** The operations *)
Context (HS : ShapeReq Sh) (HFix : Fixed Sh) (HA : AllocReq E) (Hrefl : forall a, a_eqb E a a = true).
Notation tok := (tok Sh).
Notation tthrow := (tthrow Sh).
Notation tterm := (tterm Sh).
Notation tpre := (tpre Sh).
Notation tinterp := (tinterp Sh).

Definition deeper (d : nat) : nat := S (d + d + d).

Definition step_ok (d n : nat) (o : top) : Prop :=
  forall F s, holds F s -> tpre F o -> all_fit d F -> d < n ->
  match run (tinterp n o) s with
  | ORet x s' => exists F', tok F o = Some (x, F') /\ holds F' s' /\ all_fit (deeper d) F'
  | OThrow _ s' => exists F', tthrow F o F' /\ holds F' s' /\ all_fit (deeper d) F'
  | OTerm => tterm F o
  | OUB _ => False
  end.

Lemma deeper_le d F : all_fit d F -> all_fit (deeper d) F.
Proof. apply all_fit_le. unfold deeper. lia. Qed.
Lemma deeper_put d F π k : all_fit d F -> fits d k.1 -> all_fit (deeper d) (put_place F π k).
Proof. intros H1 H2. eapply all_fit_le; [|by eapply (put_place_fits F π d d)]. unfold deeper. lia. Qed.
Lemma deeper_put2 d F π ρ k k' :
  all_fit d F -> fits d k.1 -> fits d k'.1 -> all_fit (deeper d) (put_place (put_place F π k) ρ k').
Proof.
  intros H1 H2 H3. eapply all_fit_le; [|eapply (put_place_fits _ ρ (d + d) d); [by eapply put_place_fits|done]]. unfold deeper. lia.
Qed.
Lemma deeper_put_insert d F π k x h k' :
  all_fit d F -> fits d k.1 -> fits d k'.1 -> all_fit (deeper d) (<[x := (h, k')]> (put_place F π k)).
Proof.
  intros H1 H2 H3. apply insert_fits; [by apply deeper_put|]. eapply fits_mono; [|exact H3]. unfold deeper. lia.
Qed.

(** Adding a variable. *)
Lemma holds_adds F s s' x h k B W :
  holds F s -> F !! x = None -> wrap_heap h (WVar x) k B W -> adds s s' B W -> holds (<[x := (h, k)]> F) s'.
Proof.
  intros H Hx Hw [A1 A2 _ A4 A5]. eapply holds_eq; [|exact A1|exact A2]. by constructor.
Qed.

Lemma mem_ok_holds F s : holds F s -> mem_ok s.
Proof. intros H. eapply placed_mem_ok, (holds_placed Sh F s H). Qed.

Lemma sub_l {K X} `{Countable K} (m1 m2 : gmap K X) : m1 ⊆ m1 ∪ m2.
Proof. apply map_union_subseteq_l. Qed.

Lemma step_copy d n x π : step_ok d n (TCopy x π).
Proof.
  intros F s H (Hx & k & Hk) Hd Hn. cbn [TreeClient.tinterp].
  destruct (place_take Sh F _ _ π k H Hk) as (y & By & Wy & R & S & Hy & EB & EW & DB & DW & Hfind & _).
  rewrite run_bind, Hfind by done. cbn [interp]. rewrite run_quiet.
  assert (Hfk : fits d k.1) by (by eapply at_place_fits).
  assert (HC := copy_all Sh HS n (place_hdr π) (WVar x) y k By Wy s).
  feed specialize HC; [by eapply mem_ok_holds|done|by eapply forest_fresh|done|eapply (fits_mono d); [lia|done]| | |].
  { rewrite EB. apply sub_l. } { rewrite EW. apply sub_l. }
  unfold makes in HC. unfold pimpl. destruct (run (i_copy _ _ _) s) as [u s'|e s'| |]; [| |done|done].
  - destruct HC as (B1 & W1 & Hw & HA1). eexists. cbn [TreeClient.tok]. rewrite Hk. split_and!; [done| |].
    + by eapply holds_adds.
    + apply insert_fits; [by apply deeper_le|]. unfold copy_w, copy_as. cbn [fst]. apply copy_fits.
      eapply fits_mono; [|exact Hfk]. unfold deeper. lia.
  - exists F. split_and!; [done|by eapply holds_same|by apply deeper_le].
Qed.

Lemma step_copya d n x a π : step_ok d n (TCopyA x a π).
Proof.
  intros F s H (Hx & k & Hk) Hd Hn. cbn [TreeClient.tinterp].
  destruct (place_take Sh F _ _ π k H Hk) as (y & By & Wy & R & S & Hy & EB & EW & DB & DW & Hfind & _).
  rewrite run_bind, Hfind by done. cbn [interp]. rewrite run_quiet.
  assert (Hfk : fits d k.1) by (by eapply at_place_fits).
  assert (HC := copya_all Sh HS n (place_hdr π) (WVar x) y k a By Wy s).
  feed specialize HC; [by eapply mem_ok_holds|done|by eapply forest_fresh|done|eapply (fits_mono d); [lia|done]| | |].
  { rewrite EB. apply sub_l. } { rewrite EW. apply sub_l. }
  unfold makes in HC. unfold pimpl. destruct (run (i_copy_a _ _ _ _) s) as [u s'|e s'| |]; [| |done|done].
  - destruct HC as (B1 & W1 & Hw & HA1). eexists. cbn [TreeClient.tok]. rewrite Hk. split_and!; [done| |].
    + by eapply holds_adds.
    + apply insert_fits; [by apply deeper_le|]. unfold copy_as. cbn [fst]. apply copy_fits.
      eapply fits_mono; [|exact Hfk]. unfold deeper. lia.
  - exists F. split_and!; [done|by eapply holds_same|by apply deeper_le].
Qed.

(** A place's wrapper is replaced and a variable added. *)
Lemma holds_two F s s' π x k kx ky y By Wy R S B1 W1 B2 W2 :
  holds F s -> F !! x = None -> at_place F π = Some k -> blocks s = By ∪ R -> wraps s = Wy ∪ S -> By ##ₘ R -> Wy ##ₘ S ->
  (forall k' B' W', wrap_heap (place_hdr π) y k' B' W' -> B' ##ₘ R -> W' ##ₘ S ->
      forest_heap (put_place F π k') (B' ∪ R) (W' ∪ S)) ->
  wrap_heap (place_hdr π) (WVar x) kx B1 W1 -> wrap_heap (place_hdr π) y ky B2 W2 -> B1 ##ₘ B2 -> W1 ##ₘ W2 ->
  replaced s s' By Wy (B1 ∪ B2) (W1 ∪ W2) ->
  holds (<[x := (place_hdr π, kx)]> (put_place F π ky)) s'.
Proof.
  intros H Hx Hk EB EW DB DW Hput H1 H2 D1 D2 [R1 R2 _ R4 R5]. rewrite EB in *. rewrite EW in *.
  assert (Hv : pl_var π <> x).
  { intros <-. apply at_place_inv in Hk as (k0 & Hk & _). congruence. }
  apply (holds_eq _ s' (B1 ∪ (B2 ∪ R)) (W1 ∪ (W2 ∪ S))).
  - constructor; [|done|apply Hput; [done|clear - R4 D1 DB; map_solve|clear - R5 D2 DW; map_solve]| |].
    + unfold put_place. by rewrite lookup_alter_ne.
    + clear - R4 D1 DB. map_solve.
    + clear - R5 D2 DW. map_solve.
  - rewrite R1. clear - R4 D1 DB. map_solve.
  - rewrite R2. clear - R5 D2 DW. map_solve.
Qed.

(** A place's wrapper is replaced. *)
Lemma holds_one F s s' π ky y By Wy R S B2 W2 :
  blocks s = By ∪ R -> wraps s = Wy ∪ S -> By ##ₘ R -> Wy ##ₘ S ->
  (forall k' B' W', wrap_heap (place_hdr π) y k' B' W' -> B' ##ₘ R -> W' ##ₘ S ->
      forest_heap (put_place F π k') (B' ∪ R) (W' ∪ S)) ->
  wrap_heap (place_hdr π) y ky B2 W2 -> replaced s s' By Wy B2 W2 -> holds (put_place F π ky) s'.
Proof.
  intros EB EW DB DW Hput H2 [R1 R2 _ R4 R5]. rewrite EB in *. rewrite EW in *.
  apply (holds_eq _ s' (B2 ∪ R) (W2 ∪ S)).
  - apply Hput; [done|clear - R4 DB; map_solve|clear - R5 DW; map_solve].
  - rewrite R1. clear - R4 DB. map_solve.
  - rewrite R2. clear - R5 DW. map_solve.
Qed.

Lemma emptied_heap h y k B W : wrap_heap h y k B W -> wrap_heap h y (emptied k) ∅ {[ y := mkW PNull k.2 ]}.
Proof. intros _. constructor. Qed.

Lemma step_move d n x π : step_ok d n (TMove x π).
Proof.
  intros F s H (Hx & k & Hk) Hd Hn. cbn [TreeClient.tinterp].
  destruct (place_take Sh F _ _ π k H Hk) as (y & By & Wy & R & S & Hy & EB & EW & DB & DW & Hfind & Hput).
  rewrite run_bind, Hfind by done. cbn [interp]. rewrite run_quiet.
  assert (Hfk : fits d k.1) by (by eapply at_place_fits).
  assert (Hxs : wraps s !! WVar x = None) by (by eapply forest_fresh).
  assert (HWy : Wy ⊆ wraps s) by (rewrite EW; apply sub_l).
  destruct (wrap_ptr Sh _ _ _ _ _ s Hy HWy) as (p & Hp & Hys & _).
  destruct (move_steal Hrefl (nodeTP n) (place_hdr π) (WVar x) y p k.2 s Hxs Hys Hp) as (s' & R' & F1 & F2 & F3).
  unfold pimpl, Tree.node_impl. rewrite R'. eexists. cbn [TreeClient.tok]. rewrite Hk. split_and!; [done| |by apply deeper_put_insert; [|apply fits_none|]].
  destruct (wrap_in _ _ _ _ _ _ Hy) as [w Hw].
  assert (w = mkW p k.2) as -> by (pose proof (lookup_weaken _ _ _ _ Hw HWy); congruence).
  assert (Hxy : WVar x <> y) by congruence.
  assert (HWyx : Wy !! WVar x = None) by (destruct (sub_at _ _ (WVar x) HWy); congruence).
  assert (Hr := rename Sh _ y (WVar x) k By Wy _ Hy Hw HWyx).
  eapply (holds_two F s s' π x k k (emptied k) y By Wy R S); [done|done|done|done|done|done|done|done|exact Hr|by eapply emptied_heap| | |].
  - clear. map_solve.
  - clear - Hxy HWyx. map_solve.
  - split; [rewrite F1|rewrite F3|done| |].
    + rewrite EB. clear - DB. map_solve.
    + rewrite EW. clear - DW Hxy HWyx Hw. map_solve.
    + clear - EB DB. rewrite EB. map_solve.
    + rewrite EW. rewrite EW in Hxs. clear - DW Hxy HWyx Hw Hxs. map_solve.
Qed.

Lemma mova_fits d a k : fits d k.1 -> fits d (mova_x (E := E) a k).1 /\ fits d (mova_y a k).1.
Proof.
  destruct k as [[[t v ks]|] b]; [|by intros _; split; apply fits_none]. unfold mova_x, mova_y. cbn [fst snd].
  intros Hf. destruct (a_eqb E a b); [split; [done|apply fits_none]|]. destruct d as [|d]; [done|].
  split; [done|]. cbn. apply Forall_map, Forall_true. intros. apply fits_none.
Qed.
Lemma move_failed_fits d (T T' : tree E) : move_failed T T' -> fits d (Some T) -> fits d (Some T').
Proof. destruct T as [t v ks]. intros [->| ->]; [done|]. by destruct d. Qed.

Lemma step_movea d n x a π : step_ok d n (TMoveA x a π).
Proof.
  intros F s H (Hx & k & Hk & Hok) Hd Hn. cbn [TreeClient.tinterp].
  destruct (place_take Sh F _ _ π k H Hk) as (y & By & Wy & R & S & Hy & EB & EW & DB & DW & Hfind & Hput).
  rewrite run_bind, Hfind by done. cbn [interp]. rewrite run_quiet.
  assert (Hfk : fits d k.1) by (by eapply at_place_fits).
  assert (Hxs : wraps s !! WVar x = None) by (by eapply forest_fresh).
  assert (HWy : Wy ⊆ wraps s) by (rewrite EW; apply sub_l).
  assert (HBy : By ⊆ blocks s) by (rewrite EB; apply sub_l).
  assert (HC := mova_all Sh HS HA Hrefl n (place_hdr π) (WVar x) a y k By Wy s).
  feed specialize HC; [by eapply mem_ok_holds|done|done|done|eapply (fits_mono d); [lia|done]|done|done|done|].
  unfold pimpl. destruct (run (i_move_a _ _ _ _) s) as [u s'|e s'| |]; [| |done|done].
  - destruct HC as (B1 & W1 & B2 & W2 & H1 & H2 & D1 & D2 & HR). eexists. cbn [TreeClient.tok]. rewrite Hk.
    destruct (mova_fits d a k Hfk) as [Hf1 Hf2]. split_and!; [done| |by apply deeper_put_insert].
    by eapply (holds_two F s s' π x k _ _ y By Wy R S).
  - destruct HC as (Hne & T & T' & B2 & W2 & HT & HTT & H2 & HR). destruct k as [k b]. cbn [fst snd] in *. subst k.
    eexists. split_and!; [by exists T, T', b| |].
    + by eapply (holds_one F s s' π _ y By Wy R S).
    + apply deeper_put; [done|]. by eapply move_failed_fits.
Qed.

Lemma step_destroy d n x h : step_ok d n (TDestroy x h).
Proof.
  intros F s H (k & Hx) Hd Hn. cbn [TreeClient.tinterp interp]. rewrite run_quiet.
  destruct (forest_take Sh F _ _ x h k H Hx) as (B1 & W1 & R & S & Hh & HF' & EB & EW & D1 & D2).
  destruct (dtor_all Sh n h (WVar x) k B1 W1 s Hh) as (s' & R' & [M1 M2 _]).
  { eapply (fits_mono d); [lia|]. by apply (Hd _ _ Hx). }
  { rewrite EB. apply sub_l. } { rewrite EW. apply sub_l. }
  rewrite R'. eexists. split_and!; [done| |].
  - eapply holds_eq; [exact HF'|rewrite M1, EB|rewrite M2, EW].
    + clear - D1. map_solve.
    + clear - D2. map_solve.
  - intros y hk [_ Hy]%lookup_delete_Some. by apply (deeper_le d F Hd _ _ Hy).
Qed.

(** Two places' wrappers are replaced. *)
Lemma holds_places F s s' π ρ kx ky x Bx Wx y By Wy R S B1 W1 B2 W2 :
  blocks s = Bx ∪ (By ∪ R) -> wraps s = Wx ∪ (Wy ∪ S) ->
  Bx ##ₘ By -> Bx ##ₘ R -> By ##ₘ R -> Wx ##ₘ Wy -> Wx ##ₘ S -> Wy ##ₘ S ->
  (forall k' B' W' k2' B2' W2', wrap_heap (place_hdr π) x k' B' W' -> wrap_heap (place_hdr ρ) y k2' B2' W2' ->
      B' ##ₘ B2' -> B' ##ₘ R -> B2' ##ₘ R -> W' ##ₘ W2' -> W' ##ₘ S -> W2' ##ₘ S ->
      forest_heap (put_place (put_place F π k') ρ k2') (B' ∪ (B2' ∪ R)) (W' ∪ (W2' ∪ S))) ->
  wrap_heap (place_hdr π) x kx B1 W1 -> wrap_heap (place_hdr ρ) y ky B2 W2 -> B1 ##ₘ B2 -> W1 ##ₘ W2 ->
  replaced s s' (Bx ∪ By) (Wx ∪ Wy) (B1 ∪ B2) (W1 ∪ W2) ->
  holds (put_place (put_place F π kx) ρ ky) s'.
Proof.
  intros EB EW D1 D2 D3 D4 D5 D6 Hput H1 H2 D7 D8 [R1 R2 _ R4 R5]. rewrite EB in *. rewrite EW in *.
  apply (holds_eq _ s' (B1 ∪ (B2 ∪ R)) (W1 ∪ (W2 ∪ S))).
  - apply Hput; try done.
    + clear - R4 D1 D2 D3. map_solve.
    + clear - R4 D1 D2 D3. map_solve.
    + clear - R5 D4 D5 D6. map_solve.
    + clear - R5 D4 D5 D6. map_solve.
  - rewrite R1. clear - R4 D1 D2 D3 D7. map_solve.
  - rewrite R2. clear - R5 D4 D5 D6 D8. map_solve.
Qed.

Lemma at_put_same k p k' : at_path k p = Some k' -> put k p k' = k.
Proof.
  revert k. induction p as [|[i h] p IH]; intros k; cbn; [by intros [= ->]|].
  destruct k as [[[t v ks]|] a]; [|done]. cbn. case_decide; [|done].
  destruct (ks !! i) as [ki|] eqn:Hi; [|done]. intros Hp. do 3 f_equal.
  rewrite (alter_insert_list _ _ _ _ Hi), (IH _ Hp). by apply list_insert_id.
Qed.
Lemma at_put_place_same F π k : at_place F π = Some k -> put_place F π k = F.
Proof.
  intros (k0 & H0 & H1)%at_place_inv. erewrite put_place_eq by done. rewrite at_put_same by done.
  by apply insert_id.
Qed.

(** Writing one of two separate places does not change the other. *)
Lemma at_put_apart k p q k' : apart p q = true -> at_path (put k p k') q = at_path k q.
Proof.
  revert q k. induction p as [|[i h] p IH]; intros [|[j h'] q] k; cbn; try done. intros Hap.
  destruct k as [[[t v ks]|] a]; [|done]. cbn. case_decide as Hd; [|done].
  destruct (decide (i = j)) as [->|Hne].
  - rewrite list_lookup_alter. destruct (ks !! j) as [kj|]; [|done]. cbn. apply IH.
    by rewrite Nat.eqb_refl in Hap.
  - by rewrite list_lookup_alter_ne.
Qed.
Lemma at_put_separate F π ρ k : separate π ρ = true -> at_place (put_place F π k) ρ = at_place F ρ.
Proof.
  unfold separate, TreeClient.at_place, put_place. intros Hsep. destruct (decide (pl_var π = pl_var ρ)) as [Heq|Hne].
  - rewrite <- Heq, lookup_alter. destruct (F !! pl_var π) as [[h k0]|]; [|done]. cbn.
    case_decide; [|done]. apply at_put_apart. by rewrite Heq, Nat.eqb_refl in Hsep.
  - by rewrite lookup_alter_ne.
Qed.

(** Assigning to itself. *)
Lemma casg_self n h y s : run (i_copy_assign (node_impl n h) y y) s = ORet tt s.
Proof.
  unfold Tree.node_impl. destruct h; cbn; unfold Indirect20.copy_assign, Indirect14.copy_assign, Polymorphic20.copy_assign, Polymorphic14.copy_assign;
    by rewrite decide_True.
Qed.
Lemma masg_self n h y s : run (i_move_assign (node_impl n h) y y) s = ORet tt s.
Proof.
  unfold Tree.node_impl. destruct h; cbn; unfold Indirect20.move_assign, Indirect14.move_assign, Polymorphic20.move_assign, Polymorphic14.move_assign;
    rewrite decide_True by done; by rewrite run_noexcept.
Qed.
Lemma asg_copy c (k : wst) T a : in_place c k (Some T, a) = false -> asg_w Sh c k (Some T, a) = copy_as (na k.2 a) (Some T, a).
Proof.
  unfold in_place, asg_w, asg_some, copy_as. cbn [fst snd]. destruct c, (t_assignable E), k as [[D|] b]; cbn [fst snd]; try done.
  by intros ->.
Qed.

(** One operand inside the value of the other, a copy being made. *)
Lemma nested_assign d n π ρ F s k k2 : holds F s -> at_place F π = Some k -> at_place F ρ = Some k2 -> place_hdr π = place_hdr ρ ->
  all_fit d F -> d < n -> in_place (header_cls (place_hdr π)) k k2 = false -> inside π ρ = true \/ inside ρ π = true /\ pocca E = false ->
  match run (tinterp n (TAssignC π ρ)) s with
  | ORet x s' => x = ObsUnit /\ holds (put_place F π (asg_w Sh (header_cls (place_hdr π)) k k2)) s'
  | OThrow _ s' => holds F s'
  | _ => False
  end.
Proof.
  intros H Hk Hk2 Hhdr Hd Hn Hip Hin. cbn [TreeClient.tinterp].
  assert (Hfk : fits n k.1) by (eapply (fits_mono d); [lia|by eapply at_place_fits]).
  assert (Hfk2 : fits n k2.1) by (eapply (fits_mono d); [lia|by eapply at_place_fits]).
  assert (HM := mem_ok_holds F s H). destruct Hin as [Hin|[Hin Hca]].
  - destruct (place_nest Sh F _ _ π ρ k k2 H Hk Hk2 Hin)
      as (y & By & Wy & z & Bz & Wz & R & S & R2 & S2 & Hy & Hz & Hzy & -> & -> & D1 & D2 & EB & EW & D3 & D4 & Hfind & _ & Hput & T & HT).
    destruct (Hfind n s) as [F1 F2]; [done..|]. rewrite run_bind, F1, run_bind, F2. cbn [interp]. rewrite run_quiet.
    destruct k2 as [k2 a2]. cbn in HT. subst k2. unfold pimpl. rewrite <- Hhdr in Hz.
    assert (HC := copy_any Sh HS n (place_hdr π) y z k T a2 By Wy _ _ s HM Hy Hz Hzy).
    feed specialize HC; [rewrite EB; clear - D1; map_solve|rewrite EW; clear - D2; map_solve|rewrite EB; apply sub_l|rewrite EW; apply sub_l|done..|].
    destruct (run (i_copy_assign _ _ _) s) as [u s'|e s'| |]; [| |done|done].
    + destruct HC as (B' & W' & Hw & HR). split; [done|]. rewrite asg_copy by done.
      eapply (holds_one F s s' π _ y By Wy (R2 ∪ R) (S2 ∪ S)); [by rewrite EB, (assoc_L (∪))|by rewrite EW, (assoc_L (∪))| | |done|done|done].
      * clear - D1 D3. map_solve.
      * clear - D2 D4. map_solve.
    + by eapply holds_same.
  - destruct (place_nest Sh F _ _ ρ π k2 k H Hk2 Hk Hin)
      as (y & By & Wy & z & Bz & Wz & R & S & R2 & S2 & Hy & Hz & Hzy & EBz & EWz & D1 & D2 & EB & EW & D3 & D4 & Hfind & Hput & _ & T & HT).
    destruct (Hfind n s) as [F1 F2]; [done..|]. rewrite run_bind, F2, run_bind, F1. cbn [interp]. rewrite run_quiet.
    unfold pimpl. rewrite <- Hhdr in Hy.
    assert (HC := sub_copy Sh HS n (place_hdr π) z y k k2 Bz Wz By Wy s Hca HM).
    feed specialize HC; [|done|done| | | | |done|done| |].
    { destruct (wrap_in _ _ _ _ _ _ Hy). congruence. }
    { rewrite EBz. apply sub_l. } { rewrite EWz. apply sub_l. } { rewrite EB. apply sub_l. } { rewrite EW. apply sub_l. }
    { clear - Hip HT. unfold in_place in Hip. destruct k as [k1 a1], k2 as [[T2|] a2]; cbn [fst snd] in *; [|by auto]. subst k1.
      destruct (header_cls _); [|by left]. destruct (t_assignable E); [|by auto]. auto. }
    destruct (run (i_copy_assign _ _ _) s) as [u s'|e s'| |]; [| |done|done].
    + destruct HC as (B' & W' & Hw & _ & HR). split; [done|].
      assert (Hna : forall a, na k.2 a = k.2) by (intros a; unfold na, sel; by rewrite Hca).
      replace (asg_w Sh (header_cls (place_hdr π)) k k2) with (copy_as k.2 k2).
      2:{ destruct k2 as [[T2|] a2]; [by rewrite asg_copy, Hna|cbn; by rewrite Hna]. }
      by eapply (holds_one F s s' π _ z Bz Wz R S).
    + by eapply holds_same.
Qed.

Lemma step_assignc d n π ρ : step_ok d n (TAssignC π ρ).
Proof.
  intros F s H (Hhdr & k & k2 & Hk & Hk2 & Hcase) Hd Hn.
  assert (Hfk : fits d k.1) by (by eapply at_place_fits). assert (Hfk2 : fits d k2.1) by (by eapply at_place_fits).
  destruct (decide (π = ρ)) as [<-|Hne].
  { cbn [TreeClient.tinterp]. destruct (place_take Sh F _ _ π k H Hk) as (y & By & Wy & R & S & _ & _ & _ & _ & _ & Hfind & _).
    rewrite run_bind, Hfind, run_bind, Hfind by done. cbn [interp]. rewrite run_quiet. unfold pimpl. rewrite casg_self.
    exists F. cbn [TreeClient.tok]. rewrite Hk. cbn. rewrite decide_True by done. split_and!; [done|done|by apply deeper_le]. }
  assert (Htok : tok F (TAssignC π ρ) = Some (ObsUnit, put_place F π (asg_w Sh (header_cls (place_hdr π)) k k2))).
  { cbn [TreeClient.tok]. rewrite Hk, Hk2. cbn. by rewrite decide_False. }
  destruct (separate π ρ) eqn:Hsep.
  2:{ destruct Hcase as [?|[?|[Hip Hin]]]; [done|done|].
      assert (HC := nested_assign d n π ρ F s k k2 H Hk Hk2 Hhdr Hd Hn Hip). feed specialize HC.
      { destruct (nested_places Sh F π ρ k k2 Hk Hk2 Hsep) as [?|[?|?]]; [done|by left|]. destruct Hin; [by left|by right]. }
      destruct (run _ s) as [x s'|e s'| |]; [| |done|done].
      - destruct HC as [-> HC]. eexists. split_and!; [done|done|]. apply deeper_put; [done|]. by apply asg_w_fits.
      - exists (put_place F π k). rewrite (at_put_place_same F π k Hk). split_and!; [|done|by apply deeper_le].
        split; [done|]. exists k, k2, k. split_and!; [done|done|by constructor|]. by rewrite (at_put_place_same F π k Hk). }
  cbn [TreeClient.tinterp].
  destruct (place_take2 Sh F _ _ π ρ k k2 H Hk Hk2 Hsep)
    as (x & Bx & Wx & y & By & Wy & R & S & Hx & Hy & EB & EW & D1 & D2 & D3 & D4 & D5 & D6 & Hfind & Hput).
  destruct (Hfind n s) as [F1 F2]; [done..|].
  rewrite run_bind, F1, run_bind, F2. cbn [interp]. rewrite run_quiet.
  assert (HP := holds_placed Sh F s H).
  assert (HBx : Bx ⊆ blocks s) by (rewrite EB; apply sub_l). assert (HWx : Wx ⊆ wraps s) by (rewrite EW; apply sub_l).
  assert (HBy : By ⊆ blocks s) by (rewrite EB; clear - D1; map_solve).
  assert (HWy : Wy ⊆ wraps s) by (rewrite EW; clear - D4; map_solve).
  assert (Hy' := Hy). rewrite <- Hhdr in Hy'.
  assert (HC := casg_all Sh HS HFix HA n (place_hdr π) x y k k2 Bx Wx By Wy s HP).
  feed specialize HC; [|done|done|done|done|done|done|done|done|eapply (fits_mono d); [lia|done]|eapply (fits_mono d); [lia|done]|].
  { apply HP. destruct (wrap_in _ _ _ _ _ _ Hx) as [q Hq]. exists q. by eapply lookup_weaken. }
  unfold pimpl.
  assert (Hfin : forall k' B' W' s', wrap_heap (place_hdr π) x k' B' W' -> replaced s s' Bx Wx B' W' -> holds (put_place F π k') s').
  { intros k' B' W' s' Hw' HR. rewrite <- (at_put_place_same (put_place F π k') ρ k2).
    2:{ by rewrite at_put_separate. }
    assert (HRy := replaced_trans s s' s' Bx Wx B' W' By Wy By Wy HR).
    destruct HRy as (HR2 & D7 & D8); [|done..|].
    { apply replaced_refl.
      - rewrite (rp_b _ _ _ _ _ _ HR). assert (D := rp_db _ _ _ _ _ _ HR). clear - D D1 HBy. map_solve.
      - rewrite (rp_w _ _ _ _ _ _ HR). assert (D := rp_dw _ _ _ _ _ _ HR). clear - D D4 HWy. map_solve. }
    by eapply (holds_places F s s' π ρ k' k2 x Bx Wx y By Wy R S). }
  destruct (run (i_copy_assign _ _ _) s) as [u s'|e s'| |]; [| |done|done].
  - destruct HC as (B' & W' & Hw' & HR). eexists. split_and!; [exact Htok|by eapply Hfin|].
    apply deeper_put; [done|]. by apply asg_w_fits.
  - destruct HC as (k' & B' & W' & Hw' & _ & HR & Hcf). exists (put_place F π k'). split_and!; [split; [done|by exists k, k2, k']|by eapply Hfin|].
    apply deeper_put; [done|]. by eapply casg_failed_fits.
Qed.

Lemma masg_fits d k k' : fits d k.1 -> fits d k'.1 -> fits d (masg_x (E := E) k k').1 /\ fits d (masg_y k k').1.
Proof.
  intros Hk. destruct k' as [[[t v ks]|] b]; [|by intros _; split; apply fits_none]. unfold masg_x, masg_y. cbn [fst snd].
  intros Hf. destruct (a_eqb E k.2 b); [split; [done|apply fits_none]|]. destruct d as [|d]; [done|].
  split; [done|]. cbn. apply Forall_map, Forall_true. intros. apply fits_none.
Qed.

Lemma step_assignm d n π ρ : step_ok d n (TAssignM π ρ).
Proof.
  intros F s H (Hsep & Hhdr & [k Hk] & [k2 Hk2]) Hd Hn.
  destruct (decide (π = ρ)) as [<-|Hπρ].
  { cbn [TreeClient.tinterp]. destruct (place_take Sh F _ _ π k H Hk) as (y & By & Wy & R & S & Hy & EB & EW & _ & _ & Hfind & _).
    rewrite run_bind, Hfind, run_bind, Hfind by done. cbn [interp]. rewrite run_quiet. unfold pimpl. rewrite masg_self.
    exists F. cbn [TreeClient.tok]. rewrite Hk. cbn. rewrite decide_True by done. split_and!; [done|done|by apply deeper_le]. }
  destruct Hsep as [?|Hsep]; [done|]. cbn [TreeClient.tinterp].
  destruct (place_take2 Sh F _ _ π ρ k k2 H Hk Hk2 Hsep)
    as (x & Bx & Wx & y & By & Wy & R & S & Hx & Hy & EB & EW & D1 & D2 & D3 & D4 & D5 & D6 & Hfind & Hput).
  destruct (Hfind n s) as [F1 F2]; [done..|].
  rewrite run_bind, F1, run_bind, F2. cbn [interp]. rewrite run_quiet.
  assert (Hfk : fits d k.1) by (by eapply at_place_fits). assert (Hfk2 : fits d k2.1) by (by eapply at_place_fits).
  assert (HBx : Bx ⊆ blocks s) by (rewrite EB; apply sub_l). assert (HWx : Wx ⊆ wraps s) by (rewrite EW; apply sub_l).
  assert (HBy : By ⊆ blocks s) by (rewrite EB; clear - D1; map_solve).
  assert (HWy : Wy ⊆ wraps s) by (rewrite EW; clear - D4; map_solve).
  assert (Hy' := Hy). rewrite <- Hhdr in Hy'.
  assert (HC := masg_all Sh HS HA Hrefl n (place_hdr π) x y k k2 Bx Wx By Wy s).
  feed specialize HC; [by eapply mem_ok_holds|done|done|done|done|done|done|done|done|eapply (fits_mono d); [lia|done]|eapply (fits_mono d); [lia|done]|].
  unfold pimpl. destruct (run (i_move_assign _ _ _) s) as [u s'|e s'| |]; [| |done|].
  - destruct HC as (B1 & W1 & B2 & W2 & H1 & H2 & D7 & D8 & HR). rewrite Hhdr in H2.
    eexists. cbn [TreeClient.tok]. rewrite Hk, Hk2. cbn. rewrite decide_False by done. split_and!; [done| |].
    + by eapply (holds_places F s s' π ρ _ _ x Bx Wx y By Wy R S).
    + destruct (masg_fits d k k2 Hfk Hfk2). by apply deeper_put2.
  - destruct HC as (Hp & _ & Hne & T & T' & B2 & W2 & HT & HTT & H2 & HR). rewrite Hhdr in H2.
    destruct k2 as [k2 b]. cbn [fst snd] in *. subst k2. exists (put_place F ρ (Some T', b)). split_and!.
    + by exists k, T, T', b.
    + destruct (replaced_trans s s s' Bx Wx Bx Wx By Wy B2 W2) as (HR2 & D7 & D8); [by apply replaced_refl|done..|].
      assert (Hh := holds_places F s s' π ρ k (Some T', b) x Bx Wx y By Wy R S Bx Wx B2 W2
        EB EW D1 D2 D3 D4 D5 D6 Hput Hx H2 D7 D8 HR2).
      by rewrite (at_put_place_same F π k) in Hh.
    + apply deeper_put; [done|]. by eapply move_failed_fits.
  - destruct HC as [Hp Hne]. split; [done|]. by exists k, k2.
Qed.

Lemma swap_self T h y k By Wy s : wrap_heap h y k By Wy -> Wy ⊆ wraps s -> pocs E = true \/ a_eqb E k.2 k.2 = true ->
  run (i_swap (hdr_impl h T) y y) s = ORet tt s.
Proof.
  intros Hy HWy Hc. destruct (wrap_ptr _ _ _ _ _ _ s Hy HWy) as (p & Hp & Hys & _).
  assert (Hset : forall s1, wraps s1 = wraps s -> set_wraps (<[y := mkW p k.2]> (wraps s1)) s1 = s1).
  { intros s1 E1. destruct s1. cbn in *. subst. by rewrite insert_id. }
  assert (Hswp : run (swap_p y y) s = ORet tt s).
  { unfold swap_p. erewrite st_readP by done. cbv beta. erewrite st_readP by done. cbv beta. rewrite run_bind. cbn. rewrite Hys. cbn.
    rewrite lookup_insert. cbn. rewrite insert_insert. f_equal. specialize (Hset s eq_refl). unfold set_wraps in *. cbn in *. by destruct p. }
  assert (Hswa : run (swap_a y y) s = ORet tt s).
  { unfold swap_a. erewrite st_readA by done. cbv beta. erewrite st_readA by done. cbv beta. rewrite run_bind. cbn. rewrite Hys. cbn.
    rewrite lookup_insert. cbn. rewrite insert_insert. f_equal. specialize (Hset s eq_refl). unfold set_wraps in *. cbn in *. done. }
  assert (Hrun : i_swap (hdr_impl h T) y y = Indirect20.swap y y) by (by destruct h). rewrite Hrun.
  unfold Indirect20.swap. rewrite run_noexcept. destruct (pocs E).
  - rewrite run_bind, Hswa, Hswp. done.
  - destruct Hc as [Hc|Hc]; [done|]. erewrite st_readA by done. cbv beta. erewrite st_readA by done. cbv beta. rewrite Hc, Hswp. done.
Qed.

Lemma step_swap d n π ρ : step_ok d n (TSwap π ρ).
Proof.
  intros F s H (Hsep & Hhdr & k & k2 & Hk & Hk2 & Hpre) Hd Hn.
  destruct (decide (π = ρ)) as [<-|Hπρ].
  { cbn [TreeClient.tinterp]. destruct (place_take Sh F _ _ π k H Hk) as (y & By & Wy & R & S & Hy & EB & EW & _ & _ & Hfind & _).
    rewrite run_bind, Hfind, run_bind, Hfind by done. cbn [interp]. rewrite run_quiet. unfold pimpl. 
    assert (k2 = k) as -> by congruence. assert (HWy : Wy ⊆ wraps s) by (rewrite EW; apply sub_l).
    unfold Tree.node_impl. rewrite (swap_self (nodeTP n) (place_hdr π) y k By Wy s Hy HWy Hpre).
    exists F. cbn [TreeClient.tok]. rewrite Hk. cbn. 
    assert (swap_x k k = k) as -> by (unfold swap_x; destruct (pocs E); by destruct k). rewrite !(at_put_place_same F π k Hk). split_and!; [done|done|by apply deeper_le]. }
  destruct Hsep as [?|Hsep]; [done|]. cbn [TreeClient.tinterp].
  destruct (place_take2 Sh F _ _ π ρ k k2 H Hk Hk2 Hsep)
    as (x & Bx & Wx & y & By & Wy & R & S & Hx & Hy & EB & EW & D1 & D2 & D3 & D4 & D5 & D6 & Hfind & Hput).
  destruct (Hfind n s) as [F1 F2]; [done..|].
  rewrite run_bind, F1, run_bind, F2. cbn [interp]. rewrite run_quiet.
  assert (Hfk : fits d k.1) by (by eapply at_place_fits). assert (Hfk2 : fits d k2.1) by (by eapply at_place_fits).
  assert (HBx : Bx ⊆ blocks s) by (rewrite EB; apply sub_l). assert (HWx : Wx ⊆ wraps s) by (rewrite EW; apply sub_l).
  assert (HBy : By ⊆ blocks s) by (rewrite EB; clear - D1; map_solve).
  assert (HWy : Wy ⊆ wraps s) by (rewrite EW; clear - D4; map_solve).
  assert (Hy' := Hy). rewrite <- Hhdr in Hy'.
  destruct (swap_all Sh HA (nodeTP n) (place_hdr π) x y k k2 Bx Wx By Wy s) as (s' & HR & B1 & W1 & B2 & W2 & H1 & H2 & D7 & D8 & HR');
    [done..|]. unfold pimpl, Tree.node_impl. rewrite HR. rewrite Hhdr in H2.
  eexists. cbn [TreeClient.tok]. rewrite Hk, Hk2. split_and!; [done| |by apply deeper_put2].
  by eapply (holds_places F s s' π ρ _ _ x Bx Wx y By Wy R S).
Qed.

Lemma step_get d n π : step_ok d n (TGet π).
Proof.
  intros F s H (T & a & Hk) Hd Hn. cbn [TreeClient.tinterp].
  destruct (place_take Sh F _ _ π _ H Hk) as (y & By & Wy & R & S & Hy & EB & EW & DB & DW & Hfind & Hput).
  rewrite run_bind, Hfind by done. cbn [interp]. rewrite run_bind.
  destruct T as [t v ks]. apply wrap_inv in Hy as (l & b & B1 & W1 & -> & -> & HBl & HWy & Hok & Hlen & Hm).
  assert (Hl : blocks s !! l = Some b) by (rewrite EB; at_norm; by rewrite decide_True).
  assert (Hys : wraps s !! y = Some (mkW (PLoc l) a)) by (rewrite EW; at_norm; by rewrite decide_True).
  unfold pimpl, Tree.node_impl. erewrite st_star by done. cbn. rewrite Hl. destruct Hok as (_ & Hobj & _). rewrite Hobj. cbn.
  exists F. rewrite Hk. split_and!; [done|done|by apply deeper_le].
Qed.

Lemma step_mutate d n π f : step_ok d n (TMutate π f).
Proof.
  intros F s H (T & a & Hk) Hd Hn. cbn [TreeClient.tinterp].
  destruct (place_take Sh F _ _ π _ H Hk) as (y & By & Wy & R & S & Hy & EB & EW & DB & DW & Hfind & Hput).
  rewrite run_bind, Hfind by done. cbn [interp]. rewrite run_quiet, run_bind.
  assert (Hfk : fits d (Some T)) by (by apply (at_place_fits F π d _ Hk)).
  destruct T as [t v ks]. apply wrap_inv in Hy as (l & b & B1 & W1 & -> & -> & HBl & HWy & Hok & Hlen & Hm).
  assert (Hl : blocks s !! l = Some b) by (rewrite EB; at_norm; by rewrite decide_True).
  assert (Hys : wraps s !! y = Some (mkW (PLoc l) a)) by (rewrite EW; at_norm; by rewrite decide_True).
  unfold pimpl, Tree.node_impl. erewrite st_star by done.
  destruct Hok as (Hres & Hobj & Hty & Hhdr & HT). cbn [act run exec deref]. rewrite Hl, Hobj. cbn [run].
  eexists. cbn [TreeClient.tok]. rewrite Hk. split_and!; [done| |].
  - set (b' := set_obj (OLive t (f v)) b).
    eapply (holds_one F s _ π _ y (<[l := b]> B1) _ R S (<[l := b']> B1) (<[y := mkW (PLoc l) a]> W1)); [done..| |].
    + constructor; [by repeat split|rewrite Hlen; apply HFix|done|done|done].
    + split; cbn [blocks wraps exts upd_ref set_blocks].
      * apply map_eq. intros j. rewrite lookup_un. destruct (decide (l = j)) as [<-|Hne].
        { rewrite lookup_alter, Hl. cbn. rewrite Hobj. by rewrite lookup_insert. }
        rewrite lookup_alter_ne by done. rewrite EB. at_norm. rewrite !(decide_False (P := l = j)) by done.
        destruct (B1 !! j) eqn:?; [done|]. done.
      * rewrite EW. clear - DW. map_solve.
      * done.
      * rewrite EB. clear - DB. map_solve.
      * rewrite EW. clear - DW. map_solve.
  - apply deeper_put; [done|]. destruct d; done.
Qed.

Lemma step_valueless d n π : step_ok d n (TValueless π).
Proof.
  intros F s H (k & Hk) Hd Hn. cbn [TreeClient.tinterp].
  destruct (place_take Sh F _ _ π _ H Hk) as (y & By & Wy & R & S & Hy & EB & EW & DB & DW & Hfind & Hput).
  rewrite run_bind, Hfind by done. cbn [interp].
  assert (HWy : Wy ⊆ wraps s) by (rewrite EW; apply sub_l).
  destruct (wrap_ptr Sh _ _ _ _ _ s Hy HWy) as (p & Hp & Hys & Hpk).
  assert (HR : run (bind (i_valueless (pimpl Sh n π) y) (fun b => Ret (@ObsBool E b))) s =
    ORet (ObsBool (match p with PLoc _ => false | _ => true end)) s).
  { unfold pimpl, Tree.node_impl.
    destruct (place_hdr π); cbn [hdr_impl i_valueless indirect20 indirect14 polymorphic20 polymorphic14];
    change (@Indirect14.valueless_after_move E) with (@Indirect20.valueless_after_move E);
    change (@Polymorphic20.valueless_after_move E) with (@Indirect20.valueless_after_move E);
    change (@Polymorphic14.valueless_after_move E) with (@Indirect20.valueless_after_move E);
    by erewrite st_valueless by done. }
  rewrite HR. exists F. cbn [TreeClient.tok]. rewrite Hk. split_and!; [|done|by apply deeper_le].
  cbn. do 3 f_equal. destruct k as [[T|] a]; [by destruct Hpk as [l ->]|]. cbn in Hpk. by subst p.
Qed.

Lemma step_alloc d n π : step_ok d n (TAlloc π).
Proof.
  intros F s H (k & Hk) Hd Hn. cbn [TreeClient.tinterp].
  destruct (place_take Sh F _ _ π _ H Hk) as (y & By & Wy & R & S & Hy & EB & EW & DB & DW & Hfind & Hput).
  rewrite run_bind, Hfind by done. cbn [interp].
  assert (HWy : Wy ⊆ wraps s) by (rewrite EW; apply sub_l).
  destruct (wrap_ptr Sh _ _ _ _ _ s Hy HWy) as (p & Hp & Hys & Hpk).
  assert (HR : run (bind (i_alloc (pimpl Sh n π) y) (fun a => Ret (@ObsAlloc E a))) s = ORet (ObsAlloc k.2) s).
  { unfold pimpl, Tree.node_impl.
    destruct (place_hdr π); cbn [hdr_impl i_alloc indirect20 indirect14 polymorphic20 polymorphic14];
    unfold Indirect20.get_allocator, Indirect14.get_allocator, Polymorphic20.get_allocator, Polymorphic14.get_allocator;
    by erewrite st_readA by done. }
  rewrite HR. exists F. cbn [TreeClient.tok]. rewrite Hk. split_and!; [done|done|by apply deeper_le].
Qed.

Lemma step_make d n x h a t c : step_ok d n (TMake x h a t c).
Proof.
  intros F s H (Hx & HT & Hlen & Hnd & Hargs) Hd Hn. cbn [TreeClient.tinterp interp eval_arg]. rewrite run_quiet.
  set (nm := fun j => default (WVar 0) (k_args Sh c !! j)).
  destruct (args_take (k_hdr Sh t) nm (k_args Sh c) 0 F _ _ H Hnd) as (B & W & R & S & Hm & EB & EW & D1 & D2 & Hput).
  { intros j w Hj. subst nm. cbn. by rewrite Hj. }
  { done. }
  assert (Hla : length (args_of F (k_args Sh c)) = length (k_args Sh c)) by (by eapply (args_of_length F (k_hdr Sh t) _ 0)).
  destruct n as [|n]; [lia|].
  change (bind (Ret (AArgs c)) (fun v => i_inplace_a (node_impl (Datatypes.S n) h) (WVar x) a t v))
    with (i_inplace_a (node_impl (Datatypes.S n) h) (WVar x) a t (AArgs c)).
  assert (HC := make_all Sh Hrefl n h (WVar x) a t c nm (args_of F (k_args Sh c)) B W s).
  feed specialize HC; [by eapply mem_ok_holds|done|by eapply forest_fresh|done|congruence| |done|rewrite EB; apply sub_l|rewrite EW; apply sub_l|].
  { intros j Hj. rewrite Hla in Hj. subst nm. cbn. destruct (lookup_lt_is_Some_2 _ _ Hj) as [w Hw]. by rewrite Hw. }
  destruct (run (i_inplace_a _ _ _ _ _) s) as [u s'|e s'| |]; [| |done|done].
  - destruct HC as (B1 & W1 & W2 & Hw & Hm' & D3 & [R1 R2 _ R4 R5]). rewrite EB in *. rewrite EW in *.
    eexists. split_and!; [done| |].
    + apply (holds_eq _ s' (B1 ∪ (∅ ∪ R)) (W1 ∪ (W2 ∪ S))).
      * constructor; [by apply args_moved_none|done| | |].
        -- apply Hput; [done|clear; map_solve|clear - R5 D2; map_solve].
        -- clear - R4 D1. map_solve.
        -- clear - R5 D2 D3. map_solve.
      * rewrite R1. clear - D1. map_solve.
      * rewrite R2. clear - D2. map_solve.
    + apply insert_fits; [apply deeper_le, args_moved_fits, Hd|]. cbn. eapply Forall_impl; [by apply args_of_fits|].
      intros k. apply fits_mono. lia.
  - exists F. split_and!; [done|by eapply holds_same|by apply deeper_le].
Qed.

Theorem step_all d n o : step_ok d n o.
Proof.
  destruct o; [apply step_make|apply step_copy|apply step_copya|apply step_move|apply step_movea|apply step_destroy|
    apply step_assignc|apply step_assignm|apply step_swap|apply step_mutate|apply step_get|apply step_valueless|apply step_alloc].
Qed.

(** ** Clients *)
Fixpoint depth_after (m d : nat) : nat := match m with 0 => d | S m' => depth_after m' (deeper d) end.

Lemma depth_after_ge m d : d <= depth_after m d.
Proof. revert d. induction m as [|m IH]; intros d; [done|]. cbn. specialize (IH (deeper d)). unfold deeper in *. lia. Qed.

Lemma client_ok m : forall c F s d n, at_most m c -> tsafe Sh c F -> holds F s -> all_fit d F -> depth_after m d < n ->
  match run_tclient Sh n c s with
  | HOk outs s' => exists F', tpath Sh c F outs F' /\ holds F' s'
  | HTerm => tends Sh c F
  | HUB _ => False
  end.
Proof.
  induction m as [|m IH]; intros [|o next] F s d n Hm Hsafe H Hd Hn; [by exists F|done|by exists F|].
  cbn [run_tclient]. destruct Hsafe as [Hpre Hsafe]. cbn in Hn.
  assert (HSt := step_all d n o F s H Hpre Hd).
  feed specialize HSt. { pose proof (depth_after_ge m (deeper d)). unfold deeper in *. lia. }
  assert (Hnext : forall r F1 s1, tstep Sh F o r F1 -> holds F1 s1 -> all_fit (deeper d) F1 ->
    match hcons r (run_tclient Sh n (next r) s1) with
    | HOk outs s' => exists F', tpath Sh (TDo o next) F outs F' /\ holds F' s'
    | HTerm => tends Sh (TDo o next) F
    | HUB _ => False
    end).
  { intros r F1 s1 Hst H1 Hd1. specialize (IH (next r) F1 s1 (deeper d) n (Hm r) (Hsafe r F1 Hst) H1 Hd1 Hn).
    destruct (run_tclient Sh n (next r) s1) as [outs s'|u|]; cbn [hcons]; [|done|].
    - destruct IH as (F' & Hp & H'). exists F'. split; [|done]. by exists F1.
    - right. by exists r, F1. }
  destruct (run (tinterp n o) s) as [x s1|e s1|u|].
  - destruct HSt as (F1 & Htok & H1 & Hd1). by apply (Hnext (inl x) F1).
  - destruct HSt as (F1 & Htok & H1 & Hd1). by apply (Hnext (inr e) F1).
  - done.
  - by left.
Qed.
End tree.
