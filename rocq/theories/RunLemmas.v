(** * Running the building blocks that all class models share. *)

From stdpp Require Import base gmap list.
From Verif Require Import Lang Common Client Spec Rep Effect.

(** Requirements on the allocator type used in the safety proofs.  Both are part of
    the Cpp17Allocator requirements ([a1 == a2] only if storage allocated from
    each can be deallocated via the other; [is_always_equal]). *)
Record AllocReq (E : Env) : Prop := {
  ar_res : forall a b, a_eqb E a b = true -> a_res E a = a_res E b;
  ar_ae : always_equal E = true -> forall a b, a_eqb E a b = true;
}.

(** One step of symbolic execution. *)
Ltac ex :=
  cbn [run bind catch act act_thr noexcept_if exec blocks wraps exts orc trc b_a b_ty b_hdr
       b_obj w_p w_a fst snd negb];
  unfold log, set_blocks, set_wraps, set_exts, set_orc, set_hdr, set_obj;
  cbn [run bind catch act act_thr noexcept_if exec blocks wraps exts orc trc b_a b_ty b_hdr
       b_obj w_p w_a fst snd negb].

Section lemmas.
Context {E : Env}.
Notation A := (eA E).
Notation V := (eV E).
Implicit Types s : store E.

Lemma upd_src_wraps (x : arg E) v s : wraps (upd_src x v s) = wraps s.
Proof. by destruct x as [|[] []]. Qed.
Lemma upd_src_orc (x : arg E) v s : orc (upd_src x v s) = orc s.
Proof. by destruct x as [|[] []]. Qed.
Lemma upd_src_trc (x : arg E) v s : trc (upd_src x v s) = trc s.
Proof. by destruct x as [|[] []]. Qed.

(** An update of the source preserves which blocks exist. *)
Lemma upd_src_dom (x : arg E) v s l : blocks (upd_src x v s) !! l = None <-> blocks s !! l = None.
Proof.
  destruct x as [|[] [l'|]]; simpl; try done;
    rewrite lookup_alter_None; done.
Qed.

Lemma rep_upd_ref k B W (X : gmap nat (ty * V)) o tr ω w l t v v' a :
  Rep k B W ω -> ω !! w = Some (Some (l, t, v), a) ->
  Rep k (blocks (upd_ref (RBlk l) v' (mkS B W X o tr))) W (<[w := (Some (l, t, v'), a)]> ω).
Proof.
  intros HR Hw. simpl.
  destruct (rep_own _ _ _ _ HR _ _ _ _ _ Hw) as (b & Hb & Hok).
  pose proof (rep_val _ _ _ _ _ _ _ _ v' _ HR Hw) as HR'.
  replace (alter _ l B) with (alter (set_obj (OLive t v')) l B); [done|].
  apply map_eq. intros l'. destruct (decide (l = l')) as [<-|Hne].
  - rewrite !lookup_alter, Hb. simpl. destruct Hok as (_ & Ho & _). by rewrite Ho.
  - by rewrite !lookup_alter_ne.
Qed.

Lemma vset_lookup_ne (g : carg E) v (ω : gmap wl (option (loc * ty * V) * A)) w :
  (forall c y, g = GDeref c y -> y <> w) -> vset g v ω !! w = ω !! w.
Proof.
  intros Hg. destruct g as [|?|c y]; try done. destruct c; simpl; try done.
  all: rewrite lookup_alter_ne; [done|by eapply Hg].
Qed.

Lemma vset_deref c y v (ω : gmap wl (option (loc * ty * V) * A)) l t v0 a :
  ω !! y = Some (Some (l, t, v0), a) -> c <> ConstL ->
  vset (GDeref c y) v ω = <[y := (Some (l, t, v), a)]> ω.
Proof.
  intros Hy Hc. destruct c; simpl; try done.
  all: apply map_eq; intros w; destruct (decide (y = w)) as [<-|Hne];
    [rewrite lookup_alter, lookup_insert, Hy; done
    |by rewrite lookup_alter_ne, lookup_insert_ne].
Qed.

Lemma rep_upd_src k B W (X : gmap nat (ty * V)) o tr ω (g : carg E) xa v :
  Rep k B W ω -> vref g ω = Some xa ->
  Rep k (blocks (upd_src xa v (mkS B W X o tr))) W (vset g v ω) /\
  exts (upd_src xa v (mkS B W X o tr)) = eset g v X.
Proof.
  intros HR Hg. destruct g as [c|c n|c y]; simpl in Hg.
  - simplify_eq. done.
  - simplify_eq. by destruct c.
  - destruct (ω !! y) as [[[[[l t] v0]|] a]|] eqn:Hy; simplify_eq.
    destruct (decide (c = ConstL)) as [->|Hc]; [done|].
    rewrite (vset_deref _ _ _ _ _ _ _ _ Hy Hc).
    pose proof (rep_upd_ref _ _ _ X o tr _ _ _ _ _ v _ HR Hy).
    by destruct c.
Qed.

Lemma vset_owned (g : carg E) v (ω : gmap wl (option (loc * ty * V) * A)) w :
  (fun o : option (loc * ty * V) * A => (fst <$> o.1, o.2)) <$> (vset g v ω !! w) =
  (fun o : option (loc * ty * V) * A => (fst <$> o.1, o.2)) <$> (ω !! w).
Proof.
  destruct g as [c|c n|c y]; try done. destruct c; try done; simpl;
  (destruct (decide (y = w)) as [<-|Hne]; [rewrite lookup_alter|by rewrite lookup_alter_ne];
   destruct (ω !! y) as [[[[[]]|]]|]; done).
Qed.

Lemma vset_none (g : carg E) v (ω : gmap wl (option (loc * ty * V) * A)) w :
  ω !! w = None -> vset g v ω !! w = None.
Proof.
  intros Hw. pose proof (vset_owned g v ω w) as H. rewrite Hw in H.
  by destruct (vset g v ω !! w).
Qed.

Lemma fresh_none k B W (ω : gmap wl (option (loc * ty * V) * A)) l :
  Rep k B W ω -> B !! l = None -> fresh_in l ω.
Proof. intros HR Hl w t v a Hw. by eapply rep_fresh. Qed.

(** Evaluation of arguments. *)
Lemma cons_vals_ok k B W (X : gmap nat (ty * V)) o tr ω (g : carg E) a t :
  Rep k B W ω -> arg_pre g (abs_spec ω X) = true ->
  exists xa v v1 v2, vref g ω = Some xa /\
    cons_vals a t xa (mkS B W X o tr) = inr (v, v1, v2) /\
    vmake t a g ω X = Some (v, v1, v2).
Proof.
  intros HR Hpre. destruct g as [c|c n|c y]; simpl in *.
  - eauto 10.
  - apply bool_decide_eq_true in Hpre as [[t' v'] Hn].
    rewrite Hn. destruct (t_cons E c t t' a v') as [v1 v2] eqn:Hc.
    eexists _, v1, v2, _. split; [done|]. simpl. by rewrite Hn, Hc.
  - unfold engaged in Hpre; simpl in Hpre. rewrite lookup_absv in *.
    destruct (ω !! y) as [[[[[l t'] v']|] ay]|] eqn:Hy; simplify_eq/=.
    destruct (rep_own _ _ _ _ HR _ _ _ _ _ Hy) as (b & Hb & (_ & Ho & _)).
    destruct (t_cons E c t t' a v') as [v1 v2] eqn:Hc.
    eexists _, v1, v2, _. split; [done|]. simpl. by rewrite Hb, Ho, Hc.
Qed.

(** The source of a successful dereference is not a fresh block. *)
Lemma cons_vals_insert a t (xa : arg E) B W X o tr o' tr' l b r :
  B !! l = None -> cons_vals a t xa (mkS B W X o tr) = inr r ->
  cons_vals a t xa (mkS (<[l := b]> B) W X o' tr') = inr r.
Proof.
  intros Hl. destruct xa as [c|c [l'|n]]; simpl; try done.
  destruct (decide (l = l')) as [<-|Hne]; [by rewrite Hl|].
  by rewrite lookup_insert_ne.
Qed.

Lemma upd_src_insert (xa : arg E) a t v B W X o tr o' tr' l b r :
  B !! l = None -> cons_vals a t xa (mkS B W X o tr) = inr r ->
  upd_src xa v (mkS (<[l := b]> B) W X o' tr') =
  mkS (<[l := b]> (blocks (upd_src xa v (mkS B W X o tr)))) W
      (exts (upd_src xa v (mkS B W X o tr))) o' tr'.
Proof.
  intros Hl. destruct xa as [c|c [l'|n]]; simpl; try done; [|by destruct c].
  destruct (decide (l = l')) as [<-|Hne]; [by rewrite Hl|].
  intros _. destruct c; try done; simpl; unfold set_blocks; simpl;
  by rewrite alter_insert_ne.
Qed.

(** What allocate-and-construct does, in terms of the store. *)
Definition newb (k : cls) (a : A) (t : ty) (l : loc) (v : V) : block E :=
  mkB a (kbty k t) (khdr k t l) (OLive t v).

Inductive cons_out (k : cls) (a : A) (t : ty) (xa : arg E) (v v1 v2 : V) s
  : outcome E loc -> Prop :=
  | co_nomem e o :
      RespFail e ∈ orc s ->
      cons_out k a t xa v v1 v2 s
        (OThrow e (mkS (blocks s) (wraps s) (exts s) o (EvAllocFail a (kbty k t) e :: trc s)))
  | co_fail e l o :
      RespFail e ∈ orc s -> blocks s !! l = None ->
      cons_out k a t xa v v1 v2 s
        (OThrow e (mkS (blocks (upd_src xa v2 s)) (wraps s) (exts (upd_src xa v2 s)) o
                       (EvDealloc a (kbty k t) l :: EvConsFail a t l xa e ::
                        EvAlloc a (kbty k t) l :: trc s)))
  | co_ok l o :
      blocks s !! l = None ->
      cons_out k a t xa v v1 v2 s
        (ORet l (mkS (<[l := newb k a t l v]> (blocks (upd_src xa v1 s)))
                     (wraps s) (exts (upd_src xa v1 s)) o
                     (EvCons a t l xa :: EvAlloc a (kbty k t) l :: trc s))).

(** The part of the cb / object construction that follows the allocation. *)
Definition cons_prog (k : cls) (a : A) (t : ty) (xa : arg E) : prog E loc :=
  match k with
  | Ind =>
      bind (act_thr (PAlloc a (BObj t))) (fun mem =>
      catch (bind (act_thr (PCons a t mem xa)) (fun _ => Ret mem))
            (fun e => bind (act (PDealloc a (BObj t) mem)) (fun _ => Throw e)))
  | Poly =>
      bind (act_thr (PAlloc a (BCb t))) (fun mem =>
      catch (bind (bind (act (PCbInit t mem)) (fun _ =>
                   bind (act_thr (PCons a t mem xa)) (fun _ => act (PCbSetP mem mem))))
                  (fun _ => Ret mem))
            (fun e => bind (act (PDealloc a (BCb t) mem)) (fun _ => Throw e)))
  end.

Lemma cons_prog_run k a t xa v v1 v2 s :
  cons_vals a t xa s = inr (v, v1, v2) ->
  cons_out k a t xa v v1 v2 s (run (cons_prog k a t xa) s).
Proof.
  intros Hv. destruct s as [B W X O tr].
  assert (Hcase : exists r o, pop (mkS B W X O tr) = (r, mkS B W X o tr) /\
                    (forall e, r = RespFail e -> RespFail e ∈ O) /\
                    (forall e, RespFail e ∈ o -> RespFail e ∈ O)).
  { destruct O as [|r o]; simpl.
    - exists (RespOk 0), []. done.
    - exists r, o. split; [done|]. split; [intros e ->; left|intros e He; by right]. }
  destruct Hcase as (r & o & Hpop & Hr & Hsub).
  set (l := choose match r with RespOk h => h | _ => 0 end B).
  assert (Hl : B !! l = None) by apply choose_fresh.
  assert (Hcase : exists r2 o2, (forall tr' B', pop (mkS B' W X o tr') = (r2, mkS B' W X o2 tr')) /\
                    (forall e, r2 = RespFail e -> RespFail e ∈ O)).
  { destruct o as [|r2 o2]; simpl.
    - exists (RespOk 0), []. done.
    - exists r2, o2. split; [done|]. intros e ->. apply Hsub. left. }
  destruct Hcase as (r2 & o2 & Hpop2 & Hr2).
  assert (Hdel : forall (bb : block E) (B' : gmap loc (block E)), B' !! l = None -> delete l (<[l:=bb]> B') = B').
  { intros. by rewrite delete_insert. }
  assert (Hll : forall vv, blocks (upd_src xa vv (mkS B W X O tr)) !! l = None).
  { intros vv. by apply upd_src_dom. }
  destruct k; cbn [cons_prog kbty khdr] in *.
  - ex. rewrite Hpop. destruct r as [h|e].
    2:{ cbn. pose proof (co_nomem Ind a t xa v v1 v2 (mkS B W X O tr) e o) as H. apply H. by apply Hr. }
    cbn [blocks]. change (choose h B) with l.
    ex.
    rewrite lookup_insert. ex; cbn [storage_for b_ty b_hdr b_obj].
    rewrite bool_decide_true by done. cbn [negb].
    rewrite (cons_vals_insert _ _ _ _ _ _ _ _ _ _ _ _ _ Hl Hv).
    rewrite Hpop2. destruct r2 as [h2|e2]; ex.
    + rewrite (upd_src_insert _ _ _ _ _ _ _ _ _ _ _ _ _ _ Hl Hv).
      ex.
      rewrite alter_insert.
      pose proof (co_ok Ind a t xa v v1 v2 (mkS B W X O tr) l o2) as H. by apply H.
    + rewrite (upd_src_insert _ _ _ _ _ _ _ _ _ _ _ _ _ _ Hl Hv).
      ex.
      rewrite lookup_insert. cbn [b_ty b_a b_obj].
      rewrite bool_decide_true by done. rewrite Nat.eqb_refl.
      ex.
      rewrite Hdel by apply Hll.
      pose proof (co_fail Ind a t xa v v1 v2 (mkS B W X O tr) e2 l o2) as H.
      apply H; [by apply Hr2|done].
  - ex. rewrite Hpop. destruct r as [h|e].
    2:{ cbn. pose proof (co_nomem Poly a t xa v v1 v2 (mkS B W X O tr) e o) as H. apply H. by apply Hr. }
    cbn [blocks]. change (choose h B) with l.
    ex.
    rewrite lookup_insert. cbn [b_ty b_hdr b_obj].
    rewrite bool_decide_true by done.
    ex.
    rewrite !insert_insert, lookup_insert. ex; cbn [storage_for b_ty b_hdr b_obj].
    rewrite !bool_decide_true by done. cbn [negb andb].
    rewrite (cons_vals_insert _ _ _ _ _ _ _ _ _ _ _ _ _ Hl Hv).
    rewrite Hpop2. destruct r2 as [h2|e2]; ex.
    + rewrite (upd_src_insert _ _ _ _ _ _ _ _ _ _ _ _ _ _ Hl Hv).
      ex.
      rewrite alter_insert, lookup_insert. ex.
      ex.
      rewrite insert_insert.
      pose proof (co_ok Poly a t xa v v1 v2 (mkS B W X O tr) l o2) as H. by apply H.
    + rewrite (upd_src_insert _ _ _ _ _ _ _ _ _ _ _ _ _ _ Hl Hv).
      ex.
      rewrite lookup_insert. cbn [b_ty b_a b_obj].
      rewrite bool_decide_true by done. rewrite Nat.eqb_refl.
      ex.
      rewrite Hdel by apply Hll.
      pose proof (co_fail Poly a t xa v v1 v2 (mkS B W X O tr) e2 l o2) as H.
      apply H; [by apply Hr2|done].
Qed.

(** Giving up the object of a wrapper. *)
Definition reset_prog (k : cls) (w : wl) : prog E unit :=
  noexcept_if true (
    bind (act (PReadP w)) (fun p =>
    match p with
    | None => Ret tt
    | Some l =>
        bind (act (PReadA w)) (fun a =>
        match k with
        | Ind => bind (bind (act (PDestroy a (tT E) l)) (fun _ => act (PDealloc a (BObj (tT E)) l)))
                      (fun _ => act (PWriteP w None))
        | Poly => bind (bind (act (PCbTy l)) (fun t =>
                        bind (act (PDestroy a t l)) (fun _ => act (PDealloc a (BCb t) l))))
                       (fun _ => act (PWriteP w None))
        end)
    end)).

Definition reset_blocks (o : option (loc * ty * V)) (B : gmap loc (block E)) :=
  match o with Some (l, _, _) => delete l B | None => B end.

Lemma reset_prog_run k w o a s :
  wraps s !! w = Some (to_wrapper (o, a)) ->
  (forall l t v, o = Some (l, t, v) -> exists b, blocks s !! l = Some b /\ block_ok k l t v a b) ->
  run (reset_prog k w) s =
  ORet tt (mkS (reset_blocks o (blocks s)) (<[w := mkW PNull a]> (wraps s)) (exts s) (orc s)
               (reset_ev k o a ++ trc s)).
Proof.
  destruct s as [B W X O tr]. cbn [wraps blocks exts orc trc]. intros Hw Hb.
  unfold reset_prog. ex. rewrite Hw.
  destruct o as [[[l t] v]|]; cbn [to_wrapper w_p fst snd].
  2:{ cbn. rewrite insert_id; done. }
  destruct (Hb _ _ _ eq_refl) as (b & Hbl & (Hres & Ho & Hty & Hhd & Ht)).
  ex. rewrite Hw. cbn [to_wrapper w_p w_a fst snd].
  destruct k; ex.
  - specialize (Ht eq_refl). subst t.
    rewrite Hbl, Ho. rewrite bool_decide_true by done.
    ex.
    rewrite lookup_insert. cbn [set_obj b_ty b_a b_obj]. rewrite Hty. cbn [kbty].
    rewrite bool_decide_true by done. cbn [negb]. rewrite Hres, Nat.eqb_refl. cbn [negb].
    ex. rewrite Hw.
    cbn [to_wrapper w_a fst snd].
    ex.
    by rewrite delete_insert_delete.
  - rewrite Hbl, Hhd. cbn [khdr].
    ex.
    rewrite Hbl, Ho. rewrite bool_decide_true by done.
    ex.
    rewrite lookup_insert. cbn [set_obj b_ty b_a b_obj]. rewrite Hty. cbn [kbty].
    rewrite bool_decide_true by done. cbn [negb]. rewrite Hres, Nat.eqb_refl. cbn [negb].
    ex. rewrite Hw.
    cbn [to_wrapper w_a fst snd].
    ex.
    by rewrite delete_insert_delete.
Qed.

End lemmas.
