(** Model of operations as methods (effectful/ops/types.py 45-61, 361-377, 459-530): how an operation defined in a class
    body is looked up on objects ([Operation.__get__]) and on classes ([_ClassMethodOpDescriptor.__get__]), kept in their
    [__dict__] under a name, called, forwarded and turned into terms.
    Programs are expressions over objects without fields. Handlers are the chain of those installed for an operation,
    innermost first ([fwd] is modelled in EffModel). Not modelled: operations defined outside of classes, static methods,
    single dispatch methods, objects without [__dict__], [fwd] inside of the default of an operation, [apply]. *)
From Coq Require Import String List Bool Arith.
Import ListNotations.
Open Scope string_scope.
Open Scope list_scope.

(** ** Programs *)

Inductive kind := Method | ClassMethod.
Inductive expr :=
| Num (n : nat)
| Var (i : nat)                                  (* parameters and variables around, the first parameter is [self] or [cls] *)
| Class (c : nat)
| Add (a b : expr)
| Let (a b : expr)
| New (c : nat)                                  (* [C()] *)
| Copy (e : expr)                                (* [copy.copy(e)] *)
| Call (e : expr) (m : string) (args : list expr)       (* [e.m(args)] *)
| Super (c : nat) (m : string) (args : list expr)       (* [super().m(args)] in a body of class [c] *)
| With (e : expr) (m : string) (h body : expr)          (* [with handler({e.m: h}): body] *)
| Fwd
| Free                                           (* [raise NotHandled] *)
| Evaluate (e : expr).
(** A class: its [__name__], its method resolution order (itself first), whether it is a dataclass, its operations *)
Record cls := Cls { c_name : string; c_mro : list nat; c_data : bool; c_ops : list (string * (kind * expr)) }.
Definition table := list cls.
(** An operation of a class body: class and attribute *)
Definition def := (nat * string)%type.

(** ** Values *)

(** A value over the operations [O]; objects and classes by number *)
Inductive value (O : Type) := VNum (n : nat) | VObj (o : nat) | VCls (c : nat) | VTerm (op : O) (args : list (value O)).
Arguments VNum {O}. Arguments VObj {O}. Arguments VCls {O}. Arguments VTerm {O}.
Inductive exn := NotHandled | AttributeError | TypeError | RuntimeError | NoFuel.
Inductive outcome (A : Type) := Val (a : A) | Exc (e : exn).
Arguments Val {A}. Arguments Exc {A}.

(** Looking up an operation along a method resolution order *)
Fixpoint find_op (l : list (string * (kind * expr))) (m : string) : option (kind * expr) :=
  match l with [] => None | (n, b) :: l' => if String.eqb n m then Some b else find_op l' m end.
Definition ops_of (T : table) (c : nat) : list (string * (kind * expr)) := match nth_error T c with Some k => c_ops k | None => [] end.
Fixpoint resolve (T : table) (mro : list nat) (m : string) : option (nat * kind) :=
  match mro with
  | [] => None
  | c :: mro' => match find_op (ops_of T c) m with Some (k, _) => Some (c, k) | None => resolve T mro' m end
  end.
Definition mro (T : table) (c : nat) : list nat := match nth_error T c with Some k => c_mro k | None => [] end.
Fixpoint after (c : nat) (l : list nat) : list nat :=
  match l with [] => [] | d :: l' => if Nat.eqb c d then l' else after c l' end.
Definition body_of (T : table) (d : def) : option (kind * expr) := find_op (ops_of T (fst d)) (snd d).

(** ** Operations *)

(** An operation of a class body, or one made by [__get__], by number *)
Inductive op := OpDef (d : def) | OpInst (id : nat).
Definition def_eqb (a b : def) : bool := Nat.eqb (fst a) (fst b) && String.eqb (snd a) (snd b).
Definition op_eqb (a b : op) : bool :=
  match a, b with OpDef x, OpDef y => def_eqb x y | OpInst x, OpInst y => Nat.eqb x y | _, _ => false end.
(** What an operation is looked up on *)
Inductive recv := RObj (o : nat) | RCls (c : nat).
Definition recv_eqb (a b : recv) : bool :=
  match a, b with RObj x, RObj y => Nat.eqb x y | RCls x, RCls y => Nat.eqb x y | _, _ => false end.
(** [_name_on_instance] (459-464) and [_name_on_owner] (50-52) *)
Definition key (T : table) (k : kind) (d : def) : string :=
  match k with
  | Method => "__instanceop_" ++ (match nth_error T (fst d) with Some c => c_name c | None => "" end) ++ "_" ++ snd d
  | ClassMethod => "_descriptorop_" ++ snd d
  end%string.
(** The heap: the classes of the objects, the entries of the [__dict__]s, and what each operation made is bound to *)
Record heap := Heap { objs : list nat; dicts : list (recv * string * nat); made : list (recv * kind * def) }.
Fixpoint entry (l : list (recv * string * nat)) (r : recv) (k : string) : option nat :=
  match l with
  | [] => None
  | (r', k', id) :: l' => if recv_eqb r' r && String.eqb k' k then Some id else entry l' r k
  end.
(** [Operation.__get__] of an object (466-501) and [_ClassMethodOpDescriptor.__get__] (54-61): the entry, or a new
    operation that is entered *)
Definition get (T : table) (st : heap) (r : recv) (k : kind) (d : def) : op * heap :=
  match entry (dicts st) r (key T k d) with
  | Some id => (OpInst id, st)
  | None => let id := length (made st) in
            (OpInst id, Heap (objs st) ((r, key T k d, id) :: dicts st) (made st ++ [(r, k, d)]))
  end.
Definition class_of (st : heap) (o : nat) : option nat := nth_error (objs st) o.
(** The attribute [m] of a value, looked up along [l]; on a class an operation of the class body is itself (502-505) *)
Definition attribute (T : table) (st : heap) (v : value op) (from : list nat -> list nat) (m : string) : outcome op * heap :=
  match v with
  | VObj o =>
      match class_of st o with
      | Some c => match resolve T (from (mro T c)) m with
                  | Some (d, Method) => let (p, st') := get T st (RObj o) Method (d, m) in (Val p, st')
                  | Some (d, ClassMethod) => let (p, st') := get T st (RCls c) ClassMethod (d, m) in (Val p, st')
                  | None => (Exc AttributeError, st)
                  end
      | None => (Exc AttributeError, st)
      end
  | VCls c => match resolve T (from (mro T c)) m with
              | Some (d, Method) => (Val (OpDef (d, m)), st)
              | Some (d, ClassMethod) => let (p, st') := get T st (RCls c) ClassMethod (d, m) in (Val p, st')
              | None => (Exc AttributeError, st)
              end
  | _ => (Exc AttributeError, st)
  end.

(** ** Terms *)

Definition is_data (T : table) (c : nat) : bool := match nth_error T c with Some k => c_data k | None => false end.
(** [_evaluate_object] (effectful/ops/semantics.py 151-166): a dataclass is built anew. *)
Definition same_or_new (T : table) (st : heap) (o : nat) : value op * heap :=
  match class_of st o with
  | Some c => if is_data T c then (VObj (length (objs st)), Heap (objs st ++ [c]) (dicts st) (made st)) else (VObj o, st)
  | None => (VObj o, st)
  end.
(** [defdata] (effectful/ops/syntax.py 430-560) evaluates the arguments; operations inside stay. *)
Fixpoint rebuild (T : table) (st : heap) (v : value op) : value op * heap :=
  match v with
  | VObj o => same_or_new T st o
  | VTerm p args =>
      let fix go st l := match l with
                         | [] => ([], st)
                         | x :: l' => let (x', st1) := rebuild T st x in let (l'', st2) := go st1 l' in (x' :: l'', st2)
                         end in
      let (args', st') := go st args in (VTerm p args', st')
  | _ => (v, st)
  end.
Fixpoint rebuild_all (T : table) (st : heap) (l : list (value op)) : list (value op) * heap :=
  match l with
  | [] => ([], st)
  | x :: l' => let (x', st1) := rebuild T st x in let (l'', st2) := rebuild_all T st1 l' in (x' :: l'', st2)
  end.
Definition defdata (T : table) (st : heap) (p : op) (args : list (value op)) : outcome (value op) * heap :=
  let (args', st') := rebuild_all T st args in (Val (VTerm p args'), st').

(** ** Running programs *)

(** A handler with the variables around it; what [fwd] stands for: the rest of the chain and the arguments *)
Definition closure := (list (value op) * expr)%type.
Definition context := option (list closure * op * list (value op)).
Inductive task :=
| TEval (ctx : context) (env : list (value op)) (e : expr)
| TCall (p : op) (args : list (value op))
| TChain (chain : list closure) (p : op) (args : list (value op))
| TEvaluate (v : value op).
Definition handlers := list (op * closure).
Definition chain_of (hs : handlers) (p : op) : list closure := map snd (filter (fun h : op * closure => op_eqb (fst h) p) hs).
Fixpoint each {A} (go : heap -> A -> outcome (value op) * heap) (st : heap) (l : list A) : outcome (list (value op)) * heap :=
  match l with
  | [] => (Val [], st)
  | t :: l' => match go st t with
               | (Val v, st1) => match each go st1 l' with (Val vs, st2) => (Val (v :: vs), st2) | (Exc e, st2) => (Exc e, st2) end
               | (Exc e, st1) => (Exc e, st1)
               end
  end.
Fixpoint run (T : table) (fuel : nat) (hs : handlers) (st : heap) (t : task) : outcome (value op) * heap :=
  match fuel with
  | 0 => (Exc NoFuel, st)
  | S f =>
      let go := run T f hs in
      let invoke st ctx env v from m args :=
        match attribute T st v from m with
        | (Val p, st1) => match each (fun st e => go st (TEval ctx env e)) st1 args with
                          | (Val vs, st2) => go st2 (TCall p vs)
                          | (Exc e, st2) => (Exc e, st2)
                          end
        | (Exc e, st1) => (Exc e, st1)
        end in
      (* [__default_rule__] (361-377) *)
      let default_rule p args (r : outcome (value op) * heap) :=
        match r with (Exc NotHandled, st') => defdata T st' p args | _ => r end in
      match t with
      | TEval ctx env e =>
          match e with
          | Num n => (Val (VNum n), st)
          | Var i => match nth_error env i with Some v => (Val v, st) | None => (Exc TypeError, st) end
          | Class c => (Val (VCls c), st)
          | Add a b => match each (fun st e => go st (TEval ctx env e)) st [a; b] with
                       | (Val [VNum x; VNum y], st') => (Val (VNum (x + y)), st')
                       | (Val _, st') => (Exc TypeError, st')
                       | (Exc e, st') => (Exc e, st')
                       end
          | Let a b => match go st (TEval ctx env a) with
                       | (Val v, st') => go st' (TEval ctx (v :: env) b)
                       | r => r
                       end
          | New c => (Val (VObj (length (objs st))), Heap (objs st ++ [c]) (dicts st) (made st))
          | Copy a => match go st (TEval ctx env a) with
                      | (Val (VObj o), st') =>
                          match class_of st' o with
                          | Some c => let o' := length (objs st') in
                              (Val (VObj o'), Heap (objs st' ++ [c])
                                 (map (fun q : recv * string * nat => (RObj o', snd (fst q), snd q))
                                      (filter (fun q : recv * string * nat => recv_eqb (fst (fst q)) (RObj o)) (dicts st')) ++ dicts st') (made st'))
                          | None => (Exc TypeError, st')
                          end
                      | (Val v, st') => (Val v, st')
                      | r => r
                      end
          | Call a m args => match go st (TEval ctx env a) with
                             | (Val v, st') => invoke st' ctx env v (fun l => l) m args
                             | r => r
                             end
          | Super c m args => match nth_error env 0 with
                              | Some v => invoke st ctx env v (after c) m args
                              | None => (Exc RuntimeError, st)
                              end
          | With a m h b => match go st (TEval ctx env a) with
                            | (Val v, st') => match attribute T st' v (fun l => l) m with
                                              | (Val p, st'') => run T f ((p, (env, h)) :: hs) st'' (TEval ctx env b)
                                              | (Exc e, st'') => (Exc e, st'')
                                              end
                            | r => r
                            end
          | Fwd => match ctx with Some (chain, p, args) => go st (TChain chain p args) | None => (Exc RuntimeError, st) end
          | Free => (Exc NotHandled, st)
          | Evaluate a => match go st (TEval ctx env a) with (Val v, st') => go st' (TEvaluate v) | r => r end
          end
      (* [Operation.__call__] (507-528) *)
      | TCall p args => go st (TChain (chain_of hs p) p args)
      | TChain ((env, h) :: chain) p args => go st (TEval (Some (chain, p, args)) (args ++ env) h)
      | TChain [] p args =>
          default_rule p args
            (match p with
             | OpDef d => match body_of T d with
                          | Some (_, b) => go st (TEval None args b)
                          | None => (Exc AttributeError, st)
                          end
             | OpInst id =>
                 match nth_error (made st) id with
                 (* [_instance_op] (476-497): the operation of the class; a term of it becomes one of the object's operation *)
                 | Some (RObj o, Method, d) =>
                     match go st (TCall (OpDef d) (VObj o :: args)) with
                     | (Val (VTerm (OpDef d') (VObj o' :: rest)), st1) =>
                         if def_eqb d' d then let (p', st2) := get T st1 (RObj o') Method d in defdata T st2 p' rest
                         else (Val (VTerm (OpDef d') (VObj o' :: rest)), st1)
                     | r => r
                     end
                 (* the class method, bound to the class (59) *)
                 | Some (RCls c, _, d) => match body_of T d with
                                          | Some (_, b) => go st (TEval None (VCls c :: args) b)
                                          | None => (Exc AttributeError, st)
                                          end
                 | _ => (Exc AttributeError, st)
                 end
             end)
      (* [evaluate] (effectful/ops/semantics.py 118-174) *)
      | TEvaluate v =>
          match v with
          | VObj o => let (v', st') := same_or_new T st o in (Val v', st')
          | VTerm p args => match each (fun st v => go st (TEvaluate v)) st args with
                            | (Val vs, st') => go st' (TCall p vs)
                            | (Exc e, st') => (Exc e, st')
                            end
          | _ => (Val v, st)
          end
      end
  end.
(** A program from the start *)
Definition start : heap := Heap [] [] [].
Definition program (T : table) (fuel : nat) (e : expr) : outcome (value op) * heap := run T fuel [] start (TEval None [] e).
