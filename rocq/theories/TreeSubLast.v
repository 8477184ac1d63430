(** * Copy assignment of an indirect from the last member of its own value (such as popping the
    head of a list), where the objects are assigned in place: it is defined. *)

From stdpp Require Import base gmap list.
From Verif Require Import Lang Common Client Spec Rep RunLemmas Headers Hist Tree TreeProps TreeAssign TreeAssignC TreeMove TreeMoveAssign TreeSub TreeSubUB TreeObs TreeSubMem.
From Verif Require Import Indirect20 Indirect14 Polymorphic20 Polymorphic14.

Section sub.
Context {E : Env} (Sh : Shape E).
Notation A := (eA E).
Notation V := (eV E).
Notation wst := (option (tree E) * A)%type.
Implicit Types s : store E.
Notation wrap_heap := (wrap_heap Sh).
Notation mem_heap := (mem_heap Sh).
Notation node_impl := (node_impl Sh).
Notation placed := (placed Sh).
Notation placed_all := (placed_all Sh).
Notation hs := (k_hdr Sh (tT E)).

(** What [x = x->m_last] makes of the tree [T] of a wrapper with allocator [a]: data and
    other members are assigned level by level as long as the allocators are equal, the rest
    is copied. *)
Fixpoint pop_last (a : A) (T : tree E) : option (tree E) :=
  match T with
  | TNode t v kids =>
      (fix go (ks : list wst) : option (tree E) :=
         match ks with
         | [] => None
         | k :: ks' =>
             match ks' with
             | [] =>
                 match k with
                 | (Some T1, ak) =>
                     match T1 with
                     | TNode t1 v1 ks1 =>
                         if t_assignable E && a_eqb E a ak
                         then Some (TNode t (t_asgn E ConstL t t v v1).1
                                (asg_ws Sh (k_hdr Sh t) 0 (removelast ks1) (removelast kids) ++ [(pop_last ak T1, ak)]))
                         else Some (copy_tree a T1)
                     end
                 | (None, ak) => None
                 end
             | _ => go ks'
             end
         end) kids
  end.
Lemma pop_last_eq a t v ds k :
  pop_last a (TNode t v (ds ++ [k])) =
  match k with
  | (Some (TNode t1 v1 ks1 as T1), ak) =>
      if t_assignable E && a_eqb E a ak
      then Some (TNode t (t_asgn E ConstL t t v v1).1
             (asg_ws Sh (k_hdr Sh t) 0 (removelast ks1) ds ++ [(pop_last ak T1, ak)]))
      else Some (copy_tree a T1)
  | (None, ak) => None
  end.
Proof.
  transitivity (pop_last a (TNode t v (ds ++ [k]))); [done|]. unfold pop_last at 1. fold pop_last.
  rewrite removelast_last. generalize ds at 2. intros ds0.
  induction ds0 as [|d ds0 IH]; [by destruct k as [[[]|]]|].
  cbn [app]. destruct (ds0 ++ [k]) eqn:Hd; [by destruct ds0|]. exact IH.
Qed.

Context (HS : ShapeReq Sh) (HF : Fixed Sh) (HA : AllocReq E) (h : header) (Hcls : header_cls h = Ind).

Lemma pop_ok n x a t v ds k l B W s :
  pocca E = false -> hs (length ds) = h ->
  placed_all s -> placed s x -> wrap_heap h x (Some (TNode t v (ds ++ [k])), a) B W ->
  B ⊆ blocks s -> W ⊆ wraps s -> fits n (Some (TNode t v (ds ++ [k]))) ->
  wraps s !! x = Some (mkW (PLoc l) a) ->
  match run (i_copy_assign (node_impl n h) x (WMem l (length ds))) s with
  | ORet _ s' => exists B' W', wrap_heap h x (pop_last a (TNode t v (ds ++ [k])), a) B' W' /\ replaced s s' B W B' W'
  | OThrow _ s' => exists k' B' W', wrap_heap h x k' B' W' /\ k'.2 = a /\ replaced s s' B W B' W'
  | _ => False
  end.
Proof.
  intros Hca. revert x a t v ds k l B W s.
  induction n as [|n IH]; intros x a t v ds k l B W s Hhi HP Hpx Hx HB HW Hfit Hxs; [done|].
  assert (Hx0 := Hx). assert (Hfit0 := Hfit).
  apply wrap_inv in Hx as (l' & b & B1 & W1 & -> & -> & HBl & HWx & Hok & Hlen & Hm). rewrite Hcls in Hok.
  assert (t = tT E) as -> by (by apply Hok).
  assert (l' = l) as ->.
  { pose proof (lookup_weaken _ _ x (mkW (PLoc l') a) (lookup_insert _ _ _) HW). congruence. }
  assert (Hb : blocks s !! l = Some b) by (eapply lookup_weaken; [|exact HB]; apply lookup_insert).
  assert (HB1 : B1 ⊆ blocks s) by (clear - HB HBl; map_solve).
  assert (HW1 : W1 ⊆ wraps s) by (clear - HW HWx; map_solve).
  cbn [fits] in Hfit. apply Forall_app in Hfit as [Hfd Hfr]. apply Forall_cons in Hfr as [Hfk _].
  apply mem_app_inv in Hm as (Bd & Wd & Br & Wr & -> & -> & DB & DW & Hd & Hr). cbn [Nat.add] in Hr. assert (Hr0 := Hr).
  apply mem_cons_inv in Hr as (Bk & Wk & Be & We & -> & -> & _ & _ & Hk & He). apply mem_nil_inv in He as [-> ->].
  rewrite !map_union_empty in *. assert (Hk0 := Hk). rewrite Hhi in Hk0.
  set (i := length ds) in *.
  destruct (wrap_in _ _ _ _ _ _ Hk0) as [wy Hwy].
  assert (Hxy : x <> WMem l i).
  { intros ->. clear - HWx Hwy. rewrite lookup_un, Hwy in HWx. by destruct (Wd !! WMem l i). }
  pose (ip := match k.1 with Some _ => t_assignable E && a_eqb E a k.2 | _ => false end).
  destruct ip eqn:Hip; subst ip.
  2:{ (* a copy is made *)
    assert (HC := sub_copy Sh HS (S n) h x (WMem l i) (Some (TNode (tT E) v (ds ++ [k])), a) k _ _ Bk Wk s
      Hca (placed_mem_ok _ _ HP) Hxy Hx0 Hk0).
    feed specialize HC; [|  |done|done|done|by apply fits_S| |].
    { clear - HBl DB. map_solve. }
    { clear - HWx DW. map_solve. }
    { cbn [snd]. destruct k as [[T1|] ak]; cbn in *; [|tauto]. destruct (t_assignable E); [|tauto]. cbn in Hip. tauto. }
    destruct (run _ s) as [u s'|e s'| |]; [| |done|done].
    - replace (pop_last a (TNode (tT E) v (ds ++ [k])), a) with (copy_as a k).
      { destruct HC as (B' & W' & ? & _ & ?). by exists B', W'. }
      rewrite pop_last_eq. destruct k as [[[t1 v1 ks]|] ak]; cbn in Hip |- *; [|done]. by rewrite Hip.
    - eexists _, _, _. split_and!; [exact Hx0|done|]. by apply same_replaced. }
  destruct k as [[T1|] ak]; [|done]. cbn [fst snd] in *.
  destruct (t_assignable E) eqn:Hasg; [|done]. cbn in Hip.
  destruct T1 as [t1 v1 ks1].
  apply wrap_inv in Hk as (o & bo & B2 & W2 & -> & -> & HBo & HWy & Hoko & Hlen1 & Hm1). rewrite Hhi, Hcls in Hoko.
  assert (Hoko' := Hoko). destruct Hoko' as (_ & Hobjo & _ & _ & HT1). rewrite (HT1 eq_refl) in *. clear t1 HT1.
  assert (Hok' := Hok). destruct Hok' as (_ & Hobj & _).
  assert (Hys : wraps s !! WMem l i = Some (mkW (PLoc o) ak)).
  { eapply lookup_weaken; [|exact HW1]. clear - DW. at_key (WMem l i). at_norm. rewrite decide_True in * by done.
    destruct (Wd !! WMem l i); [by destruct DW|done]. }
  assert (Hbo : blocks s !! o = Some bo).
  { eapply lookup_weaken; [|exact HB1]. clear - DB. at_key o. at_norm. rewrite decide_True in * by done.
    destruct (Bd !! o); [by destruct DB|done]. }
  assert (Hol : o <> l).
  { intros ->. clear - HBl. at_norm. rewrite decide_True in HBl by done. by destruct (Bd !! l). }
  erewrite in_place_run by done. rewrite Hca, run_bind.
  (* the members of the child *)
  assert (Hlk : length ks1 = i + 1).
  { rewrite Hlen1, (HF _ v1 v), <- Hlen, app_length. done. }
  destruct (exists_last (l := ks1)) as (fs & k1 & ->).
  { intros ->. cbn in Hlk. lia. }
  rewrite app_length in Hlk. cbn in Hlk. assert (Hti : length fs = i) by lia.
  destruct n as [|n']; [done|]. cbn [fits fst] in Hfk. assert (Hfk' := Hfk). apply Forall_app in Hfk' as [Hff Hfg].
  assert (Hm10 := Hm1).
  apply mem_app_inv in Hm1 as (Bf & Wf & Bg & Wg & -> & -> & DBf & DWf & Hf & Hg). cbn [Nat.add] in Hg. rewrite Hti in Hg.
  rewrite <- Hlen, app_length. change (length ds) with i. cbn [length].
  rewrite front_app, run_bind.
  assert (HFr := front Sh HS HF HA h Hcls (S n') x a l o v v1 ds [(Some (TNode (tT E) v1 (fs ++ [k1])), ak)] fs b bo Bd Wd _ _ Bf Wf s
    HP Hpx Hxs Hb Hok Hlen Hd Hr0 DB DW HBl HWx HB1 HW1 Hol Hbo Hobjo).
  feed specialize HFr; [by rewrite Hti|exact Hf| | |done| |].
  { clear - DBf HBo. map_solve. }
  { clear - DWf HWy. map_solve. }
  { eapply Forall_impl; [exact Hff|]. intros k Hk. by apply fits_S. }
  set (Bk := <[o := bo]> (Bf ∪ Bg)) in *. set (Wk := <[WMem l i := mkW (PLoc o) ak]> (Wf ∪ Wg)) in *.
  assert (HBkl : Bk !! l = None) by (clear - HBl; clearbody Bk; at_norm; destruct (Bd !! l), (Bk !! l); done).
  assert (HWkx : Wk !! x = None) by (clear - HWx; clearbody Wk; at_norm; destruct (Wd !! x), (Wk !! x); done).
  assert (HWdx : Wd !! x = None) by (clear - HWx; clearbody Wk; at_norm; destruct (Wd !! x); done).
  assert (HBdl : Bd !! l = None) by (clear - HBl; clearbody Bk; at_norm; destruct (Bd !! l); done).
  assert (D1 : <[l := b]> Bd ##ₘ Bk) by (clear - DB HBkl; clearbody Bk; map_solve).
  assert (HBk : Bk ⊆ blocks s) by (clear - HB1 DB; clearbody Bk; map_solve).
  assert (HWk : Wk ⊆ wraps s) by (clear - HW1 DW; clearbody Wk; map_solve).
  (* putting the pieces together *)
  assert (Hput : forall s3 v' ds' k' b' Bd' Wd' B' W', length ds' = length ds ->
     mem_heap hs (WMem l) 0 ds' Bd' Wd' -> wrap_heap h (WMem l i) k' B' W' -> block_ok Ind l (tT E) v' a b' ->
     Bd' !! l = None -> Wd' !! x = None ->
     replaced s s3 (<[l := b]> Bd ∪ Bk) (Wd ∪ Wk) (<[l := b']> Bd' ∪ B') (Wd' ∪ W') ->
     <[l := b']> Bd' ##ₘ B' -> Wd' ##ₘ W' ->
     exists B3 W3, wrap_heap h x (Some (TNode (tT E) v' (ds' ++ [k'])), a) B3 W3 /\
       replaced s s3 (<[l := b]> (Bd ∪ Bk)) (<[x := mkW (PLoc l) a]> (Wd ∪ Wk)) B3 W3).
  { intros s3 v' ds' k' b' Bd' Wd' B' W' Hl' Hm' Hw' Hob' HBl' HWx' [Q1 Q2 Q3 Q4 Q5] DD1 DD2.
    assert (HB'l : B' !! l = None) by (destruct (dis_at _ _ l DD1) as [HX|]; [by rewrite lookup_insert in HX|done]).
    assert (HW'x : W' !! x = None).
    { apply (fun Q => dis_at _ _ x Q) in Q5. rewrite lookup_un, lookup_diff, lookup_un, HWdx, HWkx, HWx', Hxs in Q5. by destruct Q5. }
    exists (<[l := b']> (Bd' ∪ B')), (<[x := mkW (PLoc l) a]> (Wd' ∪ W')). split.
    - constructor; [by rewrite Hcls| | | |].
      + rewrite (HF _ v' v), <- Hlen, !app_length, Hl'. done.
      + rewrite <- (map_union_empty B'), <- (map_union_empty W').
        apply mem_app; [done| |rewrite map_union_empty; clear - DD1 HBl'; map_solve|by rewrite map_union_empty].
        cbn [Nat.add]. rewrite Hl'. fold i. constructor; [by rewrite Hhi|constructor|clear; map_solve|clear; map_solve].
      + rewrite lookup_un. by rewrite HBl', HB'l.
      + rewrite lookup_un. by rewrite HWx', HW'x.
    - clearbody Bk Wk. split; [rewrite Q1|rewrite Q2|done| |].
      + clear. map_solve.
      + clear - HWx' HW'x HWdx HWkx Hxs. map_solve.
      + clear - Q4. map_solve.
      + clear - Q5 HWx' HW'x. map_solve. }
  destruct (run (bind (act_thr _) _) s) as [u s2|e s2| |]; [| |done|done].
  2:{ destruct HFr as (v' & ds' & b' & Bd' & Wd' & Hm' & Hl' & Hob' & HBl' & HWx' & R).
      destruct (replaced_frame _ _ _ _ _ _ Bk Wk R D1 DW HBk HWk) as (RF & DD1 & DD2 & _).
      destruct (Hput s2 v' ds' _ b' Bd' Wd' Bk Wk Hl' Hm' Hk0 Hob' HBl' HWx' RF DD1 DD2) as (B3 & W3 & H3 & R3).
      eexists _, B3, W3. split_and!; [exact H3|done|exact R3]. }
  destruct HFr as (b' & Bd' & Wd' & Hd' & Hob' & HBl' & HWx' & HP2 & R).
  assert (Hla : length (asg_ws Sh hs 0 fs ds) = length ds).
  { clear - Hti. fold i. rewrite <- Hti. assert (Hlf : length ds = length fs) by done. clear Hti i. generalize 0. revert fs Hlf.
    induction ds as [|d ds IH]; intros [|k ks] Hl i; try done. cbn. f_equal. apply IH. by simplify_eq/=. }
  destruct (replaced_frame _ _ _ _ _ _ Bk Wk R D1 DW HBk HWk) as (_ & _ & _ & HBk2 & HWk2).
  assert (Hys2 : wraps s2 !! WMem l i = Some (mkW (PLoc o) ak)).
  { eapply lookup_weaken; [|exact HWk2]. subst Wk. apply lookup_insert. }
  assert (Hpy : placed s2 (WMem l i)) by (apply HP2; by eexists).
  assert (HI := IH (WMem l i) ak (tT E) v1 fs k1 o Bk Wk s2). rewrite Hti in HI.
  feed specialize HI; [done|done|done|done|done|done|done|done|].
  assert (Hpop : pop_last a (TNode (tT E) v (ds ++ [(Some (TNode (tT E) v1 (fs ++ [k1])), ak)])) =
    Some (TNode (tT E) (t_asgn E ConstL (tT E) (tT E) v v1).1 (asg_ws Sh hs 0 fs ds ++ [(pop_last ak (TNode (tT E) v1 (fs ++ [k1])), ak)]))).
  { rewrite pop_last_eq, removelast_last, Hasg, Hip. done. }
  rewrite Hpop. clear Hpop.
  assert (Hone : run (assign_members (fun j => i_copy_assign (node_impl (S n') (hs j)) (WMem l j) (WMem o j)) i 1) s2 =
    run (i_copy_assign (node_impl (S n') h) (WMem l i) (WMem o i)) s2).
  { cbn [assign_members]. rewrite Hhi, run_bind. by destruct (run _ s2) as [[]| | |]. }
  rewrite Hone. clear Hone.
  destruct (run (i_copy_assign _ _ _) s2) as [u3 s3|e s3| |]; [| |done|done].
  - destruct HI as (B' & W' & Hw' & R').
    destruct (replaced_trans _ _ _ _ _ _ _ _ _ _ _ R R' D1 DW HBk HWk) as (RT & DD1 & DD2). cbn [run].
    by apply (Hput s3 _ _ _ b' Bd' Wd' B' W' Hla Hd' Hw' Hob' HBl' HWx' RT DD1 DD2).
  - destruct HI as (k' & B' & W' & Hw' & _ & R').
    destruct (replaced_trans _ _ _ _ _ _ _ _ _ _ _ R R' D1 DW HBk HWk) as (RT & DD1 & DD2).
    destruct (Hput s3 _ _ _ b' Bd' Wd' B' W' Hla Hd' Hw' Hob' HBl' HWx' RT DD1 DD2) as (B3 & W3 & H3 & R3).
    eexists _, B3, W3. split_and!; [exact H3|done|exact R3].
Qed.
End sub.
