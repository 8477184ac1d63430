(** * Value types written by users of the class templates: they keep the contract. *)

From stdpp Require Import base gmap list.
From Verif Require Import Lang Common Client Spec Rep RunLemmas Headers Hist Tree TreeProps TreeAssign TreeAssignC TreeMove TreeMoveAssign Contract ContractProps ContractOps ContractMove ContractNode ContractUser.

Section user.
Context {E : Env} (HA : AllocReq E) (Hrefl : forall a, a_eqb E a a = true).
Implicit Types s : store E.

Lemma no_honest T : Honest (E := E) T no_cls.
Proof.
  split.
  - done.
  - by intros a t l b c s [[] _].
  - intros a t l b c o bo [].
  - intros a t l b o bo [].
  - intros a t l b [].
  - intros t l b [].
Qed.

Lemma tower_honest Sh T K n : ShapeReq Sh -> Fixed Sh -> Honest T K -> Honest (towerTP Sh T n) (tower_cls (E := E) Sh K n).
Proof. intros HS HF HO. induction n as [|n IH]; [done|]. cbn. by apply node_honest. Qed.

Lemma nodeTP_tower Sh n : nodeTP Sh n = towerTP (E := E) Sh (nodeTP Sh 0) n.
Proof. induction n as [|n IH]; [done|]. cbn [nodeTP towerTP]. by rewrite IH. Qed.

(** Classes with the same values and representation have the same objects. *)
Lemma object_as K s l b t x B W : object (copy_only_cls (E := E) K) s l b t x B W -> object K s l b t x B W.
Proof. intros [H1 H2 H3 H4]. by split. Qed.
Lemma object_as2 h0 t0 K s l b t x B W : object (handle_cls (E := E) h0 t0 K) s l b t x B W -> object (node_cls (handle_shape h0) K) s l b t x B W.
Proof. intros [H1 H2 H3 H4]. by split. Qed.

Lemma copy_only_honest T K : Honest (E := E) T K -> Honest (copy_onlyTP T) (copy_only_cls K).
Proof.
  intros [H1 H2 H3 H4 H5 H6]. split; [exact H1|exact H2| | | |].
  - intros a t l b c o bo x B W s Hc HM Hst Hob HBl. cbn [copy_onlyTP tp_cons].
    replace (match c with RVal => ARef ConstL (RBlk o) | _ => _ end) with (ARef (E := E) c (RBlk o)) by (by destruct c).
    apply object_as in Hob. by apply (H3 a t l b c o bo x B W s).
  - intros a t l b o bo x B W s HM Hst Hob HBl Hen. cbn [copy_onlyTP tp_cons]. apply object_as in Hob.
    assert (G := H3 a t l b ConstL o bo x B W s ltac:(done) HM Hst Hob HBl).
    destruct Hob as [(v & Ho & Hrep) Hbo HB HW]. destruct Hst as [Hl Hraw _ Hmem].
    assert (Hol : o <> l) by congruence. destruct (H1 _ _ _ _ _ _ Hrep) as [HBo _].
    assert (Hfo : filled (copy_only_cls K) o bo bo t x B W).
    { exists v. split; [|done]. destruct bo. cbn in *. by subst. }
    destruct (run (tp_cons T a t l (ARef ConstL (RBlk o))) s) as [u s'|e s'| |]; [| |done|done].
    + destruct G as (x' & b' & B' & W' & Hcp & Hf & [C1 C2 C3 C4 C5]).
      exists x', b', B', W', x, bo, B, W. split; [done|]. split; [done|]. split; [done|].
      assert (D1 : <[l:=b']> B' ##ₘ <[o:=bo]> B).
      { clear - C4 HB HBo HBl Hbo Hol Hl. map_solve. }
      assert (D2 : W' ##ₘ W) by (clear - C5 HW; map_solve).
      split; [done|]. split; [done|]. split; [rewrite C1|rewrite C2|done| |].
      * clear - D1 HB HBo HBl Hbo Hol Hl. map_solve.
      * clear - D2 HW. map_solve.
      * clear - C4. map_solve.
      * clear - C5. map_solve.
    + exists x, bo, B, W. split; [done|]. split; [done|]. destruct G as [C1 C2 C3 C4 C5]. split; [rewrite C1|rewrite C2|done| |].
      * clear - HB Hbo. map_solve.
      * clear - HW. map_solve.
      * clear. map_solve.
      * clear. map_solve.
  - intros a t l b x B W s Hob%object_as. exact (H5 a t l b x B W s Hob).
  - intros t l b d B W o bo x Bo Wo s HM Hd%object_as Hob%object_as. exact (H6 t l b d B W o bo x Bo Wo s HM Hd Hob).
Qed.

(** ** The class [handle] *)
Context (T : TP E) (K : Cls E) (HO : Honest T K) (Hpocs : pocs E = true).
Notation wv := (option (ty * c_val K) * eA E)%type.

Lemma handle_shape_ok h0 : ShapeReq (handle_shape (E := E) h0).
Proof. by split. Qed.
Lemma handle_fixed h0 : Fixed (handle_shape (E := E) h0).
Proof. by intros t v v'. Qed.

Lemma handle_rep h0 t0 t l v x B W : c_rep (handle_cls h0 t0 K) t l v x B W ->
  exists k, x = (v, [k]) /\ B !! l = None /\ wrapped K h0 (WMem l 0) k B W.
Proof.
  intros (-> & Hlen & Hl & Hm). destruct x as [v ks]. cbn [fst snd] in *. cbn in Hlen. destruct ks as [|k [|]]; try done.
  destruct Hm as (B1 & W1 & B2 & W2 & -> & -> & _ & _ & Hw & (-> & ->)). exists k. rewrite !(right_id_L ∅ (∪)) in *. done.
Qed.
Lemma handle_rep_mk h0 t0 t l v k B W : B !! l = None -> wrapped K h0 (WMem l 0) k B W -> c_rep (handle_cls h0 t0 K) t l v (v, [k]) B W.
Proof.
  intros Hl Hw. split; [done|]. split; [done|]. split; [done|]. cbn. exists B, W, ∅, ∅. rewrite !(right_id_L ∅ (∪)).
  split_and!; [done|done|map_solve|map_solve|done|done|done].
Qed.

Lemma handle_make h0 t0 a t l b c s :
  (exists x, c_make (handle_cls h0 t0 K) t a c x) -> mem_ok s -> storage s l b t ->
  match run (tp_cons (handleTP h0 t0 T) a t l (AArgs c)) s with
  | ORet _ s' => exists x b' B' W', c_make (handle_cls h0 t0 K) t a c x /\ filled (handle_cls h0 t0 K) l b b' t x B' W' /\
      changed s s' {[ l := b ]} ∅ (<[l := b']> B') W'
  | OThrow _ s' => changed s s' ∅ ∅ ∅ ∅
  | _ => False
  end.
Proof.
  intros (x & _ & v & Hv & _) HM [Hb Hraw Hst Hmem]. cbn [handleTP tp_cons].
  rewrite run_bind. cbn [act_thr run exec].
  rewrite Hb, Hst. cbn [negb]. rewrite Hraw. cbn [cons_vals].
  destruct (pop_eq s) as (r & orc' & -> & _). destruct r as [h|e]; cbn [upd_src run]; [|by apply changed_none].
  set (s1 := log _ _). set (v' := t_make E t a c) in *.
  assert (Hother : blocks s1 = <[l := set_obj (OLive t v') b]> (blocks s)).
  { subst s1. cbn. apply map_eq. intros i. destruct (decide (l = i)) as [<-|Hne].
    - by rewrite lookup_alter, Hb, lookup_insert.
    - by rewrite lookup_alter_ne, lookup_insert_ne. }
  assert (Hl1 : blocks s1 !! l = Some (set_obj (OLive t v') b)) by (by rewrite Hother, lookup_insert).
  assert (Hw1 : wraps s1 = wraps s) by done. assert (Hx1 : exts s1 = exts s) by done. clearbody s1.
  rewrite run_catch.
  assert (G := make_g T K HO h0 (WMem l 0) a t0 c s1).
  feed specialize G; [by exists v| | | |].
  { intros l' i' Hi'. rewrite Hw1 in Hi'. rewrite Hother. at_norm. case_decide; [by eexists|]. by apply (HM l' i'). }
  { cbn. rewrite Hl1. by eexists. }
  { rewrite Hw1. apply Hmem. }
  destruct (run (i_inplace_a _ _ _ _ _) s1) as [u s2|e s2| |]; [| |done|done].
  - destruct G as (v1 & B' & W' & Hv1 & Hwr & [A1 A2 A3 A4 A5]). rewrite Hw1 in *. rewrite Hx1 in *. rewrite Hother in *.
    assert (HB'l : B' !! l = None).
    { clear - A4. apply (fun Q => dis_at _ _ l Q) in A4. at_norm. rewrite decide_True in A4 by done. by destruct A4. }
    exists (v', [(Some (made (E := E) h0 t0, v1), a)]), (set_obj (OLive t v') b), B', W'. split; [|split].
    + split; [done|]. by exists v1.
    + exists v'. split; [done|]. by apply handle_rep_mk.
    + split; [rewrite A1|rewrite A2|done| |done].
      * clear - HB'l. map_solve.
      * done.
      * clear - A4. map_solve.
  - destruct G as [I1 I2 I3]. cbn. rewrite I1, Hl1. cbn. rewrite bool_decide_eq_true_2 by done. cbn.
    apply changed_none. split; cbn; [|congruence|congruence]. rewrite ?I1, Hother, insert_insert.
    replace (set_obj ORaw (set_obj (OLive t v') b)) with b; [by apply insert_id|].
    destruct b. cbn in *. by subst.
Qed.

Lemma handle_asg h0 t0 t l b d B W o bo x Bo Wo s :
  mem_ok s -> object (handle_cls h0 t0 K) s l b t d B W -> object (handle_cls h0 t0 K) s o bo t x Bo Wo ->
  <[l := b]> B ##ₘ <[o := bo]> Bo -> W ##ₘ Wo -> enclosed s l B W ->
  match run (tp_asgn (handleTP h0 t0 T) t l (ARef ConstL (RBlk o))) s with
  | ORet _ s' => exists d' b' B' W', c_asg (handle_cls h0 t0 K) t d x d' /\ filled (handle_cls h0 t0 K) l b b' t d' B' W' /\
      changed s s' (<[l := b]> B) W (<[l := b']> B') W'
  | OThrow _ s' => exists d' b' B' W', c_asgf (handle_cls h0 t0 K) t d x d' /\ filled (handle_cls h0 t0 K) l b b' t d' B' W' /\
      changed s s' (<[l := b]> B) W (<[l := b']> B') W'
  | _ => False
  end.
Proof.
  intros HM [(v0 & Hobj & Hrd) Hb HB HW] [(v & Hobjo & Hro) Hbo HBo HWo] DB DW Hen.
  destruct (handle_rep _ _ _ _ _ _ _ _ Hrd) as (kd & -> & HBl & Hwd).
  destruct (handle_rep _ _ _ _ _ _ _ _ Hro) as (kx & -> & HBoo & Hwx).
  assert (Hfree : wraps s !! WMem l 1 = None).
  { destruct (wraps s !! WMem l 1) eqn:Hw; [|done]. exfalso.
    destruct (wr_dom T K HO _ _ _ _ _ Hwd (WMem l 1)) as [|(l' & i' & Heq & [q Hq])]; [|done|simplify_eq].
    apply (Hen l 1); [by left|by eexists]. }
  cbn [handleTP tp_asgn]. rewrite run_bind.
  assert (R0 : run (act (PReadObj (RBlk o))) s = ORet (t, v) s) by (cbn; by rewrite Hbo, Hobjo).
  rewrite R0. cbn [snd]. rewrite run_bind.
  assert (G := copy_g T K HO h0 (WMem l 1) (WMem o 0) kx Bo Wo s HM).
  feed specialize G; [cbn; by eexists|done|by split|].
  destruct (run (i_copy _ _ _) s) as [u s1|e s1| |]; [| |done|done].
  2:{ destruct G as [I1 I2 I3]. exists (v0, [kd]), b, B, W. split; [done|]. split.
      - exists v0. split; [|done]. destruct b. cbn in *. by subst.
      - split; [rewrite I1|rewrite I2|done| |].
        + clear - HB Hb. map_solve.
        + clear - HW. map_solve.
        + clear. map_solve.
        + clear. map_solve. }
  destruct G as (k' & B' & W' & Hck & Hw' & [A1 A2 A3 A4 A5]).
  assert (HB'l : B' !! l = None).
  { clear - A4 Hb. apply (fun Q => dis_at _ _ l Q) in A4. at_norm. rewrite Hb in A4. by destruct A4. }
  rewrite run_bind.
  destruct (swap_g T K HA h0 (WMem l 0) (WMem l 1) kd k' B W B' W' s1) as (s2 & kd' & kt' & Wx & Wy & R2 & Hsw & Hx2 & Hy2 & DXY & [S1 S2 S3 S4 S5]).
  { split; [done|rewrite A1; clear - HB A4; map_solve|rewrite A2; clear - HW A5; map_solve]. }
  { split; [done|rewrite A1; clear; map_solve|rewrite A2; clear; map_solve]. }
  { clear - A4 HB. map_solve. }
  { clear - A5 HW. map_solve. }
  { by rewrite Hpocs. }
  unfold swapped in Hsw. rewrite Hpocs in Hsw. destruct Hsw as [-> ->].
  rewrite R2, run_bind.
  assert (Hb2 : blocks s2 !! l = Some b).
  { rewrite S1, !lookup_un, HB'l, HBl, lookup_diff, lookup_un, HBl, HB'l, A1, lookup_un, HB'l, lookup_diff, lookup_empty. done. }
  cbn [act run exec deref]. rewrite Hb2, Hobj. cbn [run].
  set (s3 := upd_ref _ _ _).
  assert (H3 : blocks s3 = <[l := set_obj (OLive t v) b]> (blocks s2)).
  { subst s3. cbn. rewrite (alter_put _ _ l b) by done. by rewrite Hobj. }
  assert (H3w : wraps s3 = wraps s2) by done. assert (H3x : exts s3 = exts s2) by done. clearbody s3.
  destruct (dtor_g T K HO s3 h0 (WMem l 1) kd B Wy) as (s4 & R4 & [M1 M2 M3 _ _]).
  { split; [done|rewrite H3, S1; clear - HBl A4 HB; map_solve|rewrite H3w, S2; clear - DXY; map_solve]. }
  rewrite R4. exists (v, [k']), (set_obj (OLive t v) b), B', Wx. split; [|split].
  - split; [done|]. cbn. by repeat constructor.
  - exists v. split; [done|]. by apply handle_rep_mk.
  - rewrite H3, S1, A1 in M1. rewrite H3w, S2, A2 in M2. rewrite A1 in S4. rewrite A2 in S5. split; [rewrite M1|rewrite M2|congruence| |].
    + clear - HBl HB'l HB Hb A4. map_solve.
    + clear - HW A5 DXY S5. map_solve.
    + clear - A4 HBl. map_solve.
    + clear - S5 A5. map_solve.
Qed.

Lemma handle_honest h0 t0 : Honest (handleTP h0 t0 T) (handle_cls h0 t0 K).
Proof.
  destruct (node_honest (handle_shape h0) T K HO (handle_shape_ok h0) (handle_fixed h0) HA Hrefl) as [N1 N2 N3 N4 N5 N6].
  split; [exact N1|exact (handle_make h0 t0)| | | |exact (handle_asg h0 t0)].
  - intros a t l b c o bo x B W s Hc HM Hst Hob%object_as2. exact (N3 a t l b c o bo x B W s Hc HM Hst Hob).
  - intros a t l b o bo x B W s HM Hst Hob%object_as2. exact (N4 a t l b o bo x B W s HM Hst Hob).
  - intros a t l b x B W s Hob%object_as2. exact (N5 a t l b x B W s Hob).
Qed.
End user.
