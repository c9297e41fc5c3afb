(** The global degree of parallelism after a call. *)
From Verif Require Import Base Spec Spec_Tri Spec_Blas M_Layout M_Indexer M_Broadcast M_Rearr M_Iter M_Kernel M_Tensor M_Reduce M_Matmul M_Fast M_Tri M_Blas M_Linalg M_Faer Spec_Faer.

Definition quiet {X} (m : globally X) : Prop := forall g, snd (m g) = g.
Lemma quiet_ret {X} (x : X) : quiet (gret x). Proof. intro g. reflexivity. Qed.
Lemma quiet_lift {X} (r : res X) : quiet (glift r). Proof. intro g. reflexivity. Qed.
Lemma quiet_call {X} (f : par -> res X) : quiet (gcall f). Proof. intro g. reflexivity. Qed.
Lemma quiet_bind {X Y} (m : globally X) (f : X -> globally Y) : quiet m -> (forall x, quiet (f x)) -> quiet (gbind m f).
Proof. intros Hm Hf g. unfold gbind. specialize (Hm g). destruct (m g) as [[x|e|] g']; cbn [snd] in *; subst; auto. apply Hf. Qed.
(** within [enter pool] and [leave pool orig] *)
Definition back {X} (pool : option nat) (g : par) (m : globally X) : Prop := forall x g', m (active pool g) = (Ok x, g') -> g' = g.
Lemma back_quiet {X Y} pool g (m : globally X) (f : X -> globally Y) : quiet m -> (forall x, back pool g (f x)) -> back pool g (gbind m f).
Proof. intros Hm Hf y g' E. unfold gbind in E. specialize (Hm (active pool g)). destruct (m (active pool g)) as [[x|e|] g1]; cbn [snd] in Hm; subst; try discriminate. exact (Hf x y g' E). Qed.
Lemma back_leave {X} pool g (f : unit -> globally X) : quiet (f tt) -> back pool g (gbind (leave pool g) f).
Proof. intros Hf x g' E. unfold gbind, leave, active, gset, gret in E. specialize (Hf g). destruct pool; rewrite E in Hf; exact Hf. Qed.
Lemma back_enter {X} pool (f : par -> globally X) : (forall g, back pool g (f g)) -> restores (gbind (enter pool) f).
Proof. intros H g x g' E. apply (H g x g'). rewrite <- E. unfold gbind, enter, gget, gset, gret, active. destruct pool; reflexivity. Qed.
Lemma restores_lift {X Y} (r : res X) (f : X -> globally Y) : (forall x, restores (f x)) -> restores (gbind (glift r) f).
Proof. intros H g y g' E. unfold gbind, glift in E. destruct r; try discriminate. exact (H _ g y g' E). Qed.
Ltac restoring := repeat (apply restores_lift; intros ?); apply back_enter; intros ?;
  repeat match goal with
  | |- back _ _ (gbind (glift _) _) => apply back_quiet; [apply quiet_lift|intros ?]
  | |- back _ _ (gbind (gcall _) _) => apply back_quiet; [apply quiet_call|intros ?]
  | |- back _ _ (let '_ := ?x in _) => destruct x
  | |- back _ _ (gbind (leave _ _) _) => apply back_leave; first [apply quiet_ret|apply quiet_lift]
  end.
Lemma run_lost {X} pool n (run : globally X) r g : pool = Some n -> g <> ParRayon n -> run g = (r, active pool g) -> ~ always_restores run.
Proof. intros -> N E H. apply N. symmetry. exact (H g r _ E). Qed.
