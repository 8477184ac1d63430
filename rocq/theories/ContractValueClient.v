(** * Programs that assign values to wrappers, over any value type.

    The programs of ContractClient.v, with value assignment: [x = *y], [x = std::move( *y )] and
    [x = c] for an [indirect] [x] (of either header) and a wrapper [y] of any header owning a
    [T]. *)

From stdpp Require Import base gmap list.
From Verif Require Import Lang Common Client Spec Rep Headers Hist Tree Contract ContractClient ContractUser ContractValue.

Section client.
Context {E : Env} (T : TP E) (K : Cls E) (V : Asg K).
Context (M X : Type) (code : M -> loc -> prog E X) (sem : M -> ty -> c_val K -> X + exn -> c_val K -> Prop).
Context (hs : nat -> header).
Local Open Scope prog_scope.
Notation A := (eA E).
Notation wv := (option (ty * c_val K) * A)%type.
Notation vars := (gmap nat wv).
Implicit Types m : vars.

Inductive vop :=
  | VOp (o : gop (E := E) M)
  | VSetL (x : nat) (const : bool) (y : nat)   (* [x = *y]; the lvalue is const or not *)
  | VSetR (x y : nat)                          (* [x = std::move( *y )] *)
  | VSet (x : nat) (c : eC E).                 (* [x = c] *)

Definition lv (const : bool) : cat := if const then ConstL else NonConstL.
Definition set_to (x : nat) (c : cat) (y : nat) : prog E unit :=
  o <- i_star (hdr_impl (hs y) T) (WVar y) ; i_value_assign (hdr_impl (hs x) T) (WVar x) (ARef c (RBlk o)).
Definition vinterp (o : vop) : prog E (gres (E := E) X) :=
  match o with
  | VOp o => ginterp T M X code hs o
  | VSetL x b y => void X (set_to x (lv b) y)
  | VSetR x y => void X (set_to x RVal y)
  | VSet x c => void X (i_value_assign (hdr_impl (hs x) T) (WVar x) (AArgs c))
  end.

Inductive vclient := VDone | VDo (o : vop) (next : gres (E := E) X + exn -> vclient).
Fixpoint vprog (c : vclient) : prog E (list (gres (E := E) X + exn)) :=
  match c with
  | VDone => Ret []
  | VDo o next =>
      r <- catch (v <- vinterp o ; Ret (inl v)) (fun e => Ret (inr e)) ;
      rs <- vprog (next r) ;
      Ret (r :: rs)
  end.

(** ** Specification *)
Definition vpre m (o : vop) : Prop :=
  match o with
  | VOp o => gpre K M hs m o
  | VSetL x _ y | VSetR x y => x <> y /\ header_cls (hs x) = Ind /\ is_Some (m !! x) /\ exists v a, m !! y = Some (Some (tT E, v), a)
  | VSet x c => header_cls (hs x) = Ind /\ exists k k', m !! x = Some k /\ set_made K V k c k'
  end.
Definition vstep m (o : vop) (r : gres (E := E) X + exn) m' : Prop :=
  match o with
  | VOp o => gstep K M X sem hs m o r m'
  | VSetL x _ y => exists k v a k', m !! x = Some k /\ m !! y = Some (Some (tT E, v), a) /\ m' = <[x := k']> m /\
      match r with inl r => r = RUnit /\ set_copied K V k v k' | inr _ => set_copy_failed K V k v k' end
  | VSetR x y => exists k v a k' v', m !! x = Some k /\ m !! y = Some (Some (tT E, v), a) /\
      m' = <[x := k']> (<[y := (Some (tT E, v'), a)]> m) /\
      match r with inl r => r = RUnit /\ set_moved K V k v k' v' | inr _ => set_move_failed K V k v k' v' end
  | VSet x c => exists k k', m !! x = Some k /\ m' = <[x := k']> m /\
      match r with inl r => r = RUnit /\ set_made K V k c k' | inr _ => set_make_failed K V k c k' end
  end.
Definition vends m (o : vop) : Prop :=
  match o with
  | VOp (GMoveAssign x y) => x <> y /\ pocma E = true /\ exists kx ky, m !! x = Some kx /\ m !! y = Some ky /\
      a_eqb E kx.2 ky.2 = false /\ ky.1 <> None
  | VSetR x y => exists k v a, m !! x = Some k /\ m !! y = Some (Some (tT E, v), a) /\ set_terminated K V k v
  | _ => False
  end.

Fixpoint vexec (c : vclient) m (rs : list (gres (E := E) X + exn)) m' : Prop :=
  match c with
  | VDone => rs = [] /\ m' = m
  | VDo o next => exists r rs' m1, rs = r :: rs' /\ vstep m o r m1 /\ vexec (next r) m1 rs' m'
  end.
Fixpoint vsafe (c : vclient) m : Prop :=
  match c with
  | VDone => True
  | VDo o next => vpre m o /\ forall r m', vstep m o r m' -> vsafe (next r) m'
  end.
Fixpoint vterm (c : vclient) m : Prop :=
  match c with
  | VDone => False
  | VDo o next => vends m o \/ exists r m', vstep m o r m' /\ vterm (next r) m'
  end.
End client.
Arguments VOp {E M} _.
Arguments VSetL {E M} _ _ _.
Arguments VSetR {E M} _ _.
Arguments VSet {E M} _ _.
Arguments VDone {E M X}.
Arguments VDo {E M X} _ _.
