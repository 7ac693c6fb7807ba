(** Structural induction over constraints. *)
From Verif Require Import Base GoFloat GoValue Constraint Reach.

(** the constraints nested directly in c (references are not followed) *)
Definition subs (c : constr) : list constr :=
  match c with
  | CArr a => a_items a :: a_add a :: a_pos a
  | CObj o => o_add o :: map snd (o_pats o) ++ map snd (o_props o) ++ map snd (o_sdeps o)
  | CAny l | CAll l | COneOf l => l
  | CNot x => [x]
  | _ => []
  end.

Lemma subs_children E c x : In x (subs c) -> In x (children E c).
Proof. destruct c; auto. intros []. Qed.

Section Ind.
  Variable Q : constr -> Prop.
  Hypothesis H : forall c, (forall x, In x (subs c) -> Q x) -> Q c.

  Fixpoint constr_subs_ind (c : constr) : Q c :=
    let ls := fix go (l : list constr) : Forall Q l :=
      match l with [] => Forall_nil _ | x :: r => Forall_cons x (constr_subs_ind x) (go r) end in
    let ms := fun K => fix go (l : list (K * constr)) : Forall Q (map snd l) :=
      match l with [] => Forall_nil _ | p :: r => Forall_cons (snd p) (constr_subs_ind (snd p)) (go r) end in
    H c (match c return forall x, In x (subs c) -> Q x with
         | CArr a => proj1 (Forall_forall Q _)
             (Forall_cons (a_items a) (constr_subs_ind (a_items a))
               (Forall_cons (a_add a) (constr_subs_ind (a_add a)) (ls (a_pos a))))
         | CObj o => proj1 (Forall_forall Q _)
             (Forall_cons (o_add o) (constr_subs_ind (o_add o))
               (proj2 (Forall_app Q _ _) (conj (ms _ (o_pats o))
                 (proj2 (Forall_app Q _ _) (conj (ms _ (o_props o)) (ms _ (o_sdeps o)))))))
         | CAny l => proj1 (Forall_forall Q _) (ls l)
         | CAll l => proj1 (Forall_forall Q _) (ls l)
         | COneOf l => proj1 (Forall_forall Q _) (ls l)
         | CNot x => proj1 (Forall_forall Q [x]) (Forall_cons x (constr_subs_ind x) (Forall_nil _))
         | _ => fun x (f : In x []) => match f with end
         end).
End Ind.
