(** * A tactic for permutations of concatenations *)
From stdpp Require Export list.

Lemma cons_app_1 {A} (x : A) l : x :: l = [x] ++ l.
Proof. done. Qed.

Lemma perm_close {A} (l r : list A) : l ++ [] ≡ₚ r ++ [] -> l ≡ₚ r.
Proof. by rewrite !app_nil_r. Qed.

Lemma perm_cancel {A} (a l r r' : list A) : r ≡ₚ a ++ r' -> l ≡ₚ r' -> a ++ l ≡ₚ r.
Proof. intros -> ->. done. Qed.

Lemma perm_later {A} (a x y e : list A) : x ≡ₚ a ++ e -> y ++ x ≡ₚ a ++ (y ++ e).
Proof. intros ->. apply Permutation_app_swap_app. Qed.

(** prove [y1 ++ ... ++ a ++ ... ≡ₚ a ++ ?e] *)
Ltac perm_find a :=
  lazymatch goal with
  | |- a ++ _ ≡ₚ a ++ _ => reflexivity
  | |- _ ++ _ ≡ₚ a ++ _ =>
      eapply perm_later; perm_find a
  end.

Ltac perm_norm :=
  repeat match goal with
    | |- context [?x :: ?l] => lazymatch l with [] => fail | _ => rewrite (cons_app_1 x l) end
    end;
  rewrite <-?(assoc_L (++)), ?app_nil_l.

Ltac perm_solve :=
  repeat rewrite app_nil_r;
  apply perm_close; perm_norm;
  repeat match goal with
    | |- [] ≡ₚ [] => reflexivity
    | |- ?a ++ ?l ≡ₚ ?r =>
        eapply (perm_cancel a l r); [perm_find a|]
    end.

Example perm_solve_test {A} (a b c : list A) x y : a ++ x :: b ++ [y] ++ c ≡ₚ y :: c ++ (b ++ a) ++ [x].
Proof. perm_solve. Qed.
