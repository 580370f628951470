(** What operations as methods mean: every object has its own operation for each operation of its classes, every class for
    each class method; there is no other state. An object's operation is that of the class applied to the object, unless
    handled itself. *)
From Coq Require Import String List Bool Arith.
From Verif Require Import MethModel.
Import ListNotations.
Open Scope list_scope.

(** The operation of a class body, of an object, of a class *)
Inductive sop := SDef (d : def) | SObj (o : nat) (d : def) | SCls (c : nat) (d : def).
Definition sop_eqb (a b : sop) : bool :=
  match a, b with
  | SDef x, SDef y => def_eqb x y
  | SObj o x, SObj o' y | SCls o x, SCls o' y => Nat.eqb o o' && def_eqb x y
  | _, _ => false
  end.
(** The only state: the classes of the objects *)
Definition s_attribute (T : table) (cs : list nat) (v : value sop) (from : list nat -> list nat) (m : string) : outcome sop :=
  match v with
  | VObj o => match nth_error cs o with
              | Some c => match resolve T (from (mro T c)) m with
                          | Some (d, Method) => Val (SObj o (d, m))
                          | Some (d, ClassMethod) => Val (SCls c (d, m))
                          | None => Exc AttributeError
                          end
              | None => Exc AttributeError
              end
  | VCls c => match resolve T (from (mro T c)) m with
              | Some (d, Method) => Val (SDef (d, m))
              | Some (d, ClassMethod) => Val (SCls c (d, m))
              | None => Exc AttributeError
              end
  | _ => Exc AttributeError
  end.
Definition sclosure := (list (value sop) * expr)%type.
Inductive stask :=
| SEval (ctx : option (list sclosure * sop * list (value sop))) (env : list (value sop)) (e : expr)
| SCall (p : sop) (args : list (value sop))
| SChain (chain : list sclosure) (p : sop) (args : list (value sop))
| SEvaluate (v : value sop).
Fixpoint s_each {A} (go : list nat -> A -> outcome (value sop) * list nat) (cs : list nat) (l : list A) : outcome (list (value sop)) * list nat :=
  match l with
  | [] => (Val [], cs)
  | t :: l' => match go cs t with
               | (Val v, cs1) => match s_each go cs1 l' with (Val vs, cs2) => (Val (v :: vs), cs2) | (Exc e, cs2) => (Exc e, cs2) end
               | (Exc e, cs1) => (Exc e, cs1)
               end
  end.
Fixpoint s_run (T : table) (fuel : nat) (hs : list (sop * sclosure)) (cs : list nat) (t : stask) : outcome (value sop) * list nat :=
  match fuel with
  | 0 => (Exc NoFuel, cs)
  | S f =>
      let go := s_run T f hs in
      let invoke cs ctx env v from m args :=
        match s_attribute T cs v from m with
        | Val p => match s_each (fun cs e => go cs (SEval ctx env e)) cs args with
                   | (Val vs, cs2) => go cs2 (SCall p vs)
                   | (Exc e, cs2) => (Exc e, cs2)
                   end
        | Exc e => (Exc e, cs)
        end in
      let or_term p args (r : outcome (value sop) * list nat) :=
        match r with (Exc NotHandled, cs') => (Val (VTerm p args), cs') | _ => r end in
      match t with
      | SEval ctx env e =>
          match e with
          | Num n => (Val (VNum n), cs)
          | Var i => match nth_error env i with Some v => (Val v, cs) | None => (Exc TypeError, cs) end
          | Class c => (Val (VCls c), cs)
          | Add a b => match s_each (fun cs e => go cs (SEval ctx env e)) cs [a; b] with
                       | (Val [VNum x; VNum y], cs') => (Val (VNum (x + y)), cs')
                       | (Val _, cs') => (Exc TypeError, cs')
                       | (Exc e, cs') => (Exc e, cs')
                       end
          | Let a b => match go cs (SEval ctx env a) with
                       | (Val v, cs') => go cs' (SEval ctx (v :: env) b)
                       | r => r
                       end
          | New c => (Val (VObj (length cs)), cs ++ [c])
          | Copy a => match go cs (SEval ctx env a) with
                      | (Val (VObj o), cs') => match nth_error cs' o with
                                               | Some c => (Val (VObj (length cs')), cs' ++ [c])
                                               | None => (Exc TypeError, cs')
                                               end
                      | r => r
                      end
          | Call a m args => match go cs (SEval ctx env a) with
                             | (Val v, cs') => invoke cs' ctx env v (fun l => l) m args
                             | r => r
                             end
          | Super c m args => match nth_error env 0 with
                              | Some v => invoke cs ctx env v (after c) m args
                              | None => (Exc RuntimeError, cs)
                              end
          | With a m h b => match go cs (SEval ctx env a) with
                            | (Val v, cs') => match s_attribute T cs' v (fun l => l) m with
                                              | Val p => s_run T f ((p, (env, h)) :: hs) cs' (SEval ctx env b)
                                              | Exc e => (Exc e, cs')
                                              end
                            | r => r
                            end
          | Fwd => match ctx with Some (chain, p, args) => go cs (SChain chain p args) | None => (Exc RuntimeError, cs) end
          | Free => (Exc NotHandled, cs)
          | Evaluate a => match go cs (SEval ctx env a) with (Val v, cs') => go cs' (SEvaluate v) | r => r end
          end
      | SCall p args => go cs (SChain (map snd (filter (fun h : sop * sclosure => sop_eqb (fst h) p) hs)) p args)
      | SChain ((env, h) :: chain) p args => go cs (SEval (Some (chain, p, args)) (args ++ env) h)
      | SChain [] p args =>
          or_term p args
            (match p with
             | SDef d => match body_of T d with
                         | Some (_, b) => go cs (SEval None args b)
                         | None => (Exc AttributeError, cs)
                         end
             | SObj o d => match go cs (SCall (SDef d) (VObj o :: args)) with
                           | (Val (VTerm (SDef d') (VObj o' :: rest)), cs1) =>
                               (Val (if def_eqb d' d then VTerm (SObj o' d) rest else VTerm (SDef d') (VObj o' :: rest)), cs1)
                           | r => r
                           end
             | SCls c d => match body_of T d with
                           | Some (_, b) => go cs (SEval None (VCls c :: args) b)
                           | None => (Exc AttributeError, cs)
                           end
             end)
      | SEvaluate v =>
          match v with
          | VTerm p args => match s_each (fun cs v => go cs (SEvaluate v)) cs args with
                            | (Val vs, cs') => go cs' (SCall p vs)
                            | (Exc e, cs') => (Exc e, cs')
                            end
          | _ => (Val v, cs)
          end
      end
  end.
Definition meaning (T : table) (fuel : nat) (e : expr) : outcome (value sop) * list nat := s_run T fuel [] [] (SEval None [] e).

(** ** When a program of the code has this meaning *)

(** The operations the code makes stand for those of objects and classes. *)
Definition stands_for (st : heap) (p : op) : option sop :=
  match p with
  | OpDef d => Some (SDef d)
  | OpInst id => match nth_error (made st) id with
                 | Some (RObj o, _, d) => Some (SObj o d)
                 | Some (RCls c, _, d) => Some (SCls c d)
                 | None => None
                 end
  end.
Inductive same (st : heap) : value op -> value sop -> Prop :=
| same_num n : same st (VNum n) (VNum n)
| same_obj o : same st (VObj o) (VObj o)
| same_cls c : same st (VCls c) (VCls c)
| same_term p q args args' : stands_for st p = Some q -> Forall2 (same st) args args' -> same st (VTerm p args) (VTerm q args').
Definition same_outcome (st : heap) (r : outcome (value op)) (r' : outcome (value sop)) : Prop :=
  match r, r' with Val v, Val v' => same st v v' | Exc e, Exc e' => e = e' | _, _ => False end.
(** The class of a definition defines it with this kind. *)
Definition defined (T : table) (k : kind) (d : def) : Prop := exists b, body_of T d = Some (k, b).
(** No two operations have the same [Class_method], no class method is overridden. *)
Definition apart (T : table) : Prop :=
  (forall d d', defined T Method d -> defined T Method d' -> key T Method d = key T Method d' -> d = d') /\
  (forall c m a b, In a (mro T c) -> In b (mro T c) -> defined T ClassMethod (a, m) -> defined T ClassMethod (b, m) -> a = b).
(** No objects are copied. *)
Fixpoint uncopied (e : expr) : Prop :=
  match e with
  | Num _ | Var _ | Class _ | New _ | Fwd | Free => True
  | Copy _ => False
  | Add a b | Let a b => uncopied a /\ uncopied b
  | Call a _ args => uncopied a /\ fold_right (fun e P => uncopied e /\ P) True args
  | Super _ _ args => fold_right (fun e P => uncopied e /\ P) True args
  | With a _ h b => uncopied a /\ uncopied h /\ uncopied b
  | Evaluate a => uncopied a
  end.
Definition plain (T : table) : Prop :=
  forall c k, nth_error T c = Some k -> c_data k = false /\ forall m kd b, In (m, (kd, b)) (c_ops k) -> uncopied b.
