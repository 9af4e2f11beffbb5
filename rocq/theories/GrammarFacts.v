(** The module parser of Parser.v against the grammar of SpecGrammar.v. *)
From Coq Require Import String Ascii List Arith NArith Bool Lia.
From Verif Require Import Base Chumsky ChumskyFacts Erd Parser SpecLex LexFacts SpecGrammar.
Import ListNotations.

(** ** Soundness of combinators *)

Definition lang A := list token -> A -> Prop.

(** A successful run consumes a phrase of [R] and reports nothing. *)
Definition sound {A} (p : parser token A) (R : lang A) : Prop :=
  forall s e a s', p s = POk e a s' -> e = [] /\ exists u, s_rest s = u ++ s_rest s' /\ R u a.

Definition seq {A B} (R : lang A) (Q : lang B) : lang (A * B) :=
  fun w ab => exists u v, w = u ++ v /\ R u (fst ab) /\ Q v (snd ab).
Definition image {A B} (f : A -> B) (R : lang A) : lang B :=
  fun u b => exists a, R u a /\ b = f a.
Definition opt {A} (R : lang A) : lang (option A) :=
  fun u o => match o with Some a => R u a | None => u = [] end.
Inductive many {A} (R : lang A) : lang (list A) :=
| many_nil : many R [] []
| many_cons u a v l : R u a -> many R v l -> many R (u ++ v) (a :: l).

Lemma sound_filter_map {A} (f : token -> option A) :
  sound (p_filter_map f) (fun u a => exists t, u = [t] /\ f t = Some a).
Proof.
  intros [l o] e a s'. unfold p_filter_map. simpl. destruct l as [|t l]; try discriminate.
  destruct (f t) eqn:E; try discriminate. intros [= <- <- <-]. split; auto. exists [t]. eauto.
Qed.
Lemma sound_map {A B} (f : A -> B) p R : sound p R -> sound (p_map f p) (image f R).
Proof.
  intros H s e b s'. unfold p_map. destruct (p s) as [e0 a s0| |] eqn:E; try discriminate.
  intros [= <- <- <-]. apply H in E as (He & u & Hu & Ru). split; auto. exists u. split; auto.
  exists a; auto.
Qed.
Lemma sound_then {A B} (p : parser token A) (q : parser token B) R Q :
  sound p R -> sound q Q -> sound (p_then p q) (seq R Q).
Proof.
  intros Hp Hq s e ab s'. unfold p_then. destruct (p s) as [e1 a s1| |] eqn:E1; try discriminate.
  destruct (q s1) as [e2 b s2| |] eqn:E2; try discriminate. intros [= <- <- <-].
  apply Hp in E1 as (-> & u & Hu & Ru). apply Hq in E2 as (-> & v & Hv & Qv).
  split; auto. exists (u ++ v). rewrite Hu, Hv, app_assoc. split; auto. exists u, v. auto.
Qed.
Lemma sound_weaken {A} (p : parser token A) (R R' : lang A) :
  sound p R -> (forall u a, R u a -> R' u a) -> sound p R'.
Proof. intros H HR s e a s' E. apply H in E as (He & u & Hu & Ru). split; eauto. Qed.
Lemma sound_or_not {A} (p : parser token A) R : sound p R -> sound (p_or_not p) (opt R).
Proof.
  intros H s e b s'. unfold p_or_not. destruct (p s) as [e0 a s0| |] eqn:E; try discriminate.
  - intros [= <- <- <-]. apply H in E as (He & u & Hu & Ru). split; auto. exists u; auto.
  - intros [= <- <- <-]. split; auto. exists []; simpl; auto.
Qed.
Lemma sound_choice {A} (ps : list (parser token A)) R :
  Forall (fun p => sound p R) ps -> sound (p_choice ps) R.
Proof.
  induction 1 as [|p ps Hp _ IH]; intros s e a s'; simpl; try discriminate.
  destruct (p s) as [e0 a0 s0| |] eqn:E; try discriminate.
  - intros [= <- <- <-]. eapply Hp; eauto.
  - apply IH.
Qed.
Lemma sound_repeated {A} (p : parser token A) R : adv p -> sound p R -> sound (p_repeated p) (many R).
Proof.
  intros Ha Hp.
  assert (forall n s e l s', length (s_rest s) <= n -> p_repeated p s = POk e l s' ->
            e = [] /\ exists u, s_rest s = u ++ s_rest s' /\ many R u l) as K.
  { induction n as [|n IH]; intros s e l s' Hn; rewrite repeated_eq by auto;
      pose proof (Ha s) as As; destruct (p s) as [e0 a s0| |] eqn:E; try discriminate.
    - apply advanced_length in As. lia.
    - intros [= <- <- <-]. split; auto. exists []. split; auto; constructor.
    - apply advanced_length in As as [Hl _].
      destruct (p_repeated p s0) as [e1 l1 s1| |] eqn:E1; try discriminate.
      intros [= <- <- <-]. apply Hp in E as (-> & u & Hu & Ru).
      apply IH in E1 as (-> & v & Hv & Mv); [|lia]. split; auto.
      exists (u ++ v). rewrite Hu, Hv, app_assoc. split; auto; constructor; auto.
    - intros [= <- <- <-]. split; auto. exists []. split; auto; constructor. }
  intros s e l s'. eapply K; eauto.
Qed.

Lemma token_eqb_spec a b : token_eqb a b = true <-> a = b.
Proof.
  destruct a, b; simpl; split; intros H; try congruence; auto.
  - apply str_eqb_spec in H. congruence.
  - injection H as ->. now apply str_eqb_spec.
  - apply N.eqb_eq in H. congruence.
  - injection H as ->. apply N.eqb_refl.
Qed.
Lemma sound_tok t : sound (p_tok t) (fun u _ => u = [t]).
Proof.
  intros [l o] e a s'. unfold p_tok. cbn [p_just s_rest s_off]. destruct l as [|x l]; try discriminate.
  destruct (token_eqb t x) eqn:E; try discriminate. apply token_eqb_spec in E. subst x.
  intros [= <- <- <-]. split; auto. exists [t]; auto.
Qed.
Lemma sound_to {A} t (a : A) : sound (p_to a (p_tok t)) (fun u b => u = [t] /\ b = a).
Proof.
  eapply sound_weaken; [apply sound_map, sound_tok|]. intros u b (x & Hu & Hb). auto.
Qed.

(** ** Progress *)
Lemma adv_tok t : adv (p_tok t). Proof. apply adv_just. Qed.
Lemma adv_ident : adv p_ident. Proof. apply adv_filter_map. Qed.
Lemma adv_separator : adv p_separator.
Proof. apply adv_choice. repeat constructor; apply adv_to, adv_tok. Qed.
Lemma mov_pad : mov p_pad.
Proof. apply mov_repeated, adv_separator. Qed.
Lemma adv_field_type : adv p_field_type.
Proof. apply adv_choice. repeat constructor; apply adv_to, adv_tok. Qed.
Lemma adv_field_key : adv p_field_key.
Proof. apply adv_choice. repeat constructor; apply adv_to, adv_tok. Qed.
Lemma adv_entity_path : adv p_entity_path.
Proof.
  apply adv_map, adv_then_l; [apply adv_ident|]. apply mov_ignore_then; [apply adv_mov, adv_tok|].
  apply mov_or_not, adv_mov, adv_ident.
Qed.
Lemma adv_entity_field : adv p_entity_field.
Proof.
  apply adv_map, adv_then_l; [|apply mov_or_not, adv_mov, adv_field_key].
  apply adv_then_l; [apply adv_ident|apply adv_mov, adv_field_type].
Qed.
Lemma adv_sep_item {A} (p : parser token A) : adv p ->
  adv (p_ignore_then (p_ignore_then p_separator p_pad) p).
Proof.
  intros H. apply adv_ignore_then_l; [|now apply adv_mov].
  apply adv_ignore_then_l; [apply adv_separator|apply mov_pad].
Qed.
Lemma mov_sep_rest {A} (p : parser token A) : adv p -> mov (p_sep_rest p).
Proof. intros H. apply mov_repeated, adv_sep_item, H. Qed.
Lemma mov_entity_fields : mov p_entity_fields.
Proof.
  apply mov_map, mov_padded_by; [|apply mov_pad]. apply mov_or_not, adv_mov, adv_chain;
    [apply adv_entity_field|]. apply mov_sep_rest, adv_entity_field.
Qed.
Lemma adv_entity_definition : adv p_entity_definition.
Proof.
  apply adv_map, adv_then_ignore_l; [|apply adv_mov, adv_tok].
  apply adv_then_l; [|apply mov_entity_fields].
  apply adv_then_ignore_l; [|apply adv_mov, adv_tok].
  apply adv_then_ignore_l; [apply adv_ident|apply mov_pad].
Qed.
Lemma adv_relation : adv p_relation.
Proof.
  apply adv_map, adv_then_l; [apply adv_entity_path|].
  apply mov_ignore_then; [|apply adv_mov, adv_entity_path].
  apply adv_mov, adv_padded_by; [apply adv_tok|apply mov_pad].
Qed.
Lemma adv_module_entry : adv p_module_entry.
Proof.
  apply adv_choice. repeat constructor; apply adv_map; [apply adv_entity_definition|apply adv_relation].
Qed.
Lemma mov_module_entries : mov p_module_entries.
Proof.
  apply mov_map, mov_or_not, adv_mov, adv_chain; [apply adv_module_entry|].
  apply mov_sep_rest, adv_module_entry.
Qed.
Lemma adv_erd_module : adv erd_module_parser.
Proof.
  apply adv_map, adv_padded_by; [|apply mov_pad].
  apply adv_then_ignore_l; [|apply adv_mov, adv_tok].
  apply adv_then_l; [|apply mov_padded_by; [apply mov_module_entries|apply mov_pad]].
  apply adv_then_ignore_l; [|apply adv_mov, adv_tok].
  apply adv_ignore_then_l.
  - apply adv_padded_by; [apply adv_tok|apply mov_pad].
  - apply mov_or_not, adv_mov, adv_padded_by; [apply adv_ident|apply mov_pad].
Qed.

(** ** Soundness *)

Lemma sound_ident : sound p_ident (fun u n => u = [KIdent n]).
Proof.
  eapply sound_weaken; [apply sound_filter_map|]. intros u n (t & -> & H).
  destruct t; try discriminate. injection H as ->. auto.
Qed.
Lemma sound_separator : sound p_separator (fun u _ => exists s, u = [s] /\ g_sep s).
Proof.
  apply sound_choice. repeat apply Forall_cons; try apply Forall_nil; (eapply sound_weaken; [apply sound_to|]);
    intros u a [-> _]; eexists; split; eauto; constructor.
Qed.
Lemma sound_pad : sound p_pad (fun u _ => g_pad u).
Proof.
  eapply sound_weaken; [apply sound_repeated; [apply adv_separator|apply sound_separator]|].
  intros u l. induction 1 as [|u a v l (s & -> & Hs) _ IH]; [constructor|].
  simpl. constructor; auto.
Qed.
Lemma sound_field_type : sound p_field_type (fun u ty => exists t, u = [t] /\ g_type t ty).
Proof.
  apply sound_choice. repeat apply Forall_cons; try apply Forall_nil; (eapply sound_weaken; [apply sound_to|]);
    intros u a [-> ->]; eexists; split; eauto; constructor.
Qed.
Lemma sound_field_key : sound p_field_key (fun u k => exists t, u = [t] /\ g_key t k).
Proof.
  apply sound_choice. repeat apply Forall_cons; try apply Forall_nil; (eapply sound_weaken; [apply sound_to|]);
    intros u a [-> ->]; eexists; split; eauto; constructor.
Qed.
Lemma sound_ignore_then {A B} (p : parser token A) (q : parser token B) R Q :
  sound p R -> sound q Q ->
  sound (p_ignore_then p q) (fun w b => exists u v a, w = u ++ v /\ R u a /\ Q v b).
Proof.
  intros Hp Hq. eapply sound_weaken; [apply sound_map, sound_then; eauto|].
  intros w b ((a & b') & (u & v & Hw & Ru & Qv) & ->). eauto 10.
Qed.
Lemma sound_then_ignore {A B} (p : parser token A) (q : parser token B) R Q :
  sound p R -> sound q Q ->
  sound (p_then_ignore p q) (fun w a => exists u v b, w = u ++ v /\ R u a /\ Q v b).
Proof.
  intros Hp Hq. eapply sound_weaken; [apply sound_map, sound_then; eauto|].
  intros w b ((a & b') & (u & v & Hw & Ru & Qv) & ->). eauto 10.
Qed.
Lemma sound_padded {A} (p : parser token A) R :
  sound p R ->
  sound (p_padded_by p p_pad) (fun w a => exists p1 u p2, w = p1 ++ u ++ p2 /\ g_pad p1 /\ R u a /\ g_pad p2).
Proof.
  intros Hp. eapply sound_weaken.
  - apply sound_then_ignore; [apply sound_ignore_then; [apply sound_pad|apply Hp]|apply sound_pad].
  - intros w a (u & v & ? & -> & (p1 & u' & ? & -> & Hp1 & Ru) & Hv).
    exists p1, u', v. rewrite <- app_assoc. auto.
Qed.

Lemma sound_entity_path : sound p_entity_path g_path.
Proof.
  eapply sound_weaken.
  - apply sound_map, sound_then; [apply sound_ident|].
    apply sound_ignore_then; [apply sound_tok|]. apply sound_or_not, sound_ident.
  - intros w b ((e & f) & (u & v & -> & -> & (d & x & ? & -> & -> & Ho)) & ->). cbn [fst snd] in *.
    destruct f as [f|]; simpl in Ho; subst x; constructor.
Qed.
Lemma sound_entity_field : sound p_entity_field g_field.
Proof.
  eapply sound_weaken.
  - apply sound_map, sound_then; [apply sound_then; [apply sound_ident|apply sound_field_type]|].
    apply sound_or_not, sound_field_key.
  - intros w b (((n & ty) & k) & (u & v & -> & (u1 & u2 & -> & -> & (t & -> & Ht)) & Hk) & ->).
    cbn [fst snd] in *. destruct k as [k|]; simpl in Hk.
    + destruct Hk as (x & -> & Hx). now constructor.
    + subst v. now constructor.
Qed.

Lemma sound_list {A} (p : parser token A) R : adv p -> sound p R ->
  sound (p_chain p (p_sep_rest p)) (g_list R).
Proof.
  intros Ha Hp. eapply sound_weaken.
  - apply sound_map, sound_then; [apply Hp|]. apply sound_repeated; [now apply adv_sep_item|].
    apply sound_ignore_then; [apply sound_ignore_then; [apply sound_separator|apply sound_pad]|apply Hp].
  - intros w b ((a & l) & (u & v & -> & Ru & M) & ->). cbn [fst snd] in *.
    revert u a Ru. induction M as [|u1 a1 v1 l1 H1 _ IH]; intros u a Ru.
    + rewrite app_nil_r. constructor. auto.
    + destruct H1 as (x & y & ? & -> & (s & q & ? & -> & (t & -> & Ht) & Hq) & Ra).
      replace (u ++ ((([t] ++ q) ++ y) ++ v1)) with (u ++ t :: q ++ (y ++ v1))
        by (cbn [app]; now rewrite <- app_assoc).
      constructor; auto.
Qed.
Lemma sound_items {A} (p : parser token A) R : adv p -> sound p R ->
  sound (p_or_not (p_chain p (p_sep_rest p))) (fun u o => g_items R u (unwrap_or_nil o)).
Proof.
  intros Ha Hp. eapply sound_weaken; [apply sound_or_not, sound_list; eauto|].
  intros u [l|]; simpl; [now constructor|]. intros ->. constructor.
Qed.

Lemma fold_add_field fs n : fold_left entity_add_field fs (entity_new n) = mkEntity n fs.
Proof.
  assert (forall pre, fold_left entity_add_field fs (mkEntity n pre) = mkEntity n (pre ++ fs)) as K.
  { induction fs as [|f fs IH]; intros pre; simpl; [now rewrite app_nil_r|].
    unfold entity_add_field at 2. simpl. rewrite IH, <- app_assoc. auto. }
  apply (K []).
Qed.
Lemma fold_add_entry es n : fold_left module_add_entry es (module_new n) = mkModule n es.
Proof.
  assert (forall pre, fold_left module_add_entry es (mkModule n pre) = mkModule n (pre ++ es)) as K.
  { induction es as [|f es IH]; intros pre; simpl; [now rewrite app_nil_r|].
    unfold module_add_entry at 2. simpl. rewrite IH, <- app_assoc. auto. }
  apply (K []).
Qed.

Lemma sound_entity_fields :
  sound p_entity_fields
    (fun w fs => exists p1 u p2, w = p1 ++ u ++ p2 /\ g_pad p1 /\ g_items g_field u fs /\ g_pad p2).
Proof.
  eapply sound_weaken.
  - apply sound_map, sound_padded, sound_items; [apply adv_entity_field|apply sound_entity_field].
  - intros w b (o & (p1 & u & p2 & -> & H1 & Hu & H2) & ->). eauto 10.
Qed.
Lemma sound_entity_definition : sound p_entity_definition g_def.
Proof.
  eapply sound_weaken.
  - apply sound_map, sound_then_ignore; [|apply sound_tok].
    apply sound_then; [|apply sound_entity_fields].
    apply sound_then_ignore; [|apply sound_tok].
    apply sound_then_ignore; [apply sound_ident|apply sound_pad].
  - intros w b ((n & fs) & (u & v & ? & -> & (u1 & v1 & -> & Hn & Hf) & ->) & ->). cbn [fst snd] in *.
    destruct Hn as (xx & y & ? & -> & (x1 & y1 & ? & -> & -> & Hy) & ->).
    destruct Hf as (p1 & u & p2 & -> & H1 & Hu & H2).
    rewrite fold_add_field.
    replace (((([KIdent n] ++ y1) ++ [KCtrl (ch "{")]) ++ (p1 ++ u ++ p2)) ++ [KCtrl (ch "}")])
      with (KIdent n :: y1 ++ Open :: p1 ++ u ++ p2 ++ [Close])
      by (rewrite <- !app_assoc; reflexivity).
    constructor; auto.
Qed.
Lemma sound_relation : sound p_relation g_rel.
Proof.
  eapply sound_weaken.
  - apply sound_map, sound_then; [apply sound_entity_path|].
    apply sound_ignore_then; [|apply sound_entity_path]. apply sound_padded, sound_tok.
  - intros w b ((xa & yb) & (u & v & -> & Hx & (e & v' & ? & -> & (p1 & e' & p2 & -> & H1 & -> & H2) & Hy)) & ->).
    cbn [fst snd] in *.
    replace (u ++ (p1 ++ [KEdge] ++ p2) ++ v') with (u ++ p1 ++ KEdge :: p2 ++ v')
      by (rewrite <- !app_assoc; reflexivity).
    constructor; auto.
Qed.
Lemma sound_module_entry : sound p_module_entry g_entry.
Proof.
  apply sound_choice. repeat apply Forall_cons; try apply Forall_nil.
  - eapply sound_weaken; [apply sound_map, sound_entity_definition|].
    intros u a (d & Hd & ->). now constructor.
  - eapply sound_weaken; [apply sound_map, sound_relation|].
    intros u a (d & Hd & ->). now constructor.
Qed.
Lemma sound_module_entries : sound p_module_entries (g_items g_entry).
Proof.
  eapply sound_weaken; [apply sound_map, sound_items; [apply adv_module_entry|apply sound_module_entry]|].
  intros u l (o & Ho & ->). auto.
Qed.

Theorem sound_erd_module : sound erd_module_parser g_module.
Proof.
  eapply sound_weaken.
  - apply sound_map, sound_padded, sound_then_ignore; [|apply sound_tok].
    apply sound_then; [|apply sound_padded, sound_module_entries].
    apply sound_then_ignore; [|apply sound_tok].
    apply sound_ignore_then; [apply sound_padded, sound_tok|].
    apply sound_or_not, sound_padded, sound_ident.
  - intros w m ((n & es) & (p1 & w' & p5 & -> & H1 & (u & v & ? & -> & (a & b & -> & Hn & He) & ->) & H5) & ->).
    cbn [fst snd] in *.
    destruct Hn as (xx & y & ? & -> & (c & d & ? & -> & (q1 & e & q2 & -> & Q1 & -> & Q2) & Hn) & ->).
    destruct He as (p3 & ets & p4 & -> & H3 & He & H4).
    rewrite fold_add_entry.
    destruct n as [n|]; simpl in Hn.
    + destruct Hn as (r1 & e' & r2 & -> & R1 & -> & R2).
      replace (p1 ++ (((((q1 ++ [KErd] ++ q2) ++ (r1 ++ [KIdent n] ++ r2)) ++ [KCtrl (ch "{")])
                       ++ (p3 ++ ets ++ p4)) ++ [KCtrl (ch "}")]) ++ p5)
        with ((p1 ++ q1) ++ KErd :: (q2 ++ r1) ++ (KIdent n :: r2) ++ Open :: p3 ++ ets ++ p4 ++ Close :: p5)
        by (rewrite <- !app_assoc; cbn [app]; rewrite <- ?app_assoc; reflexivity).
      constructor; auto; try (apply Forall_app; auto). now constructor.
    + subst d.
      replace (p1 ++ (((((q1 ++ [KErd] ++ q2) ++ []) ++ [KCtrl (ch "{")])
                       ++ (p3 ++ ets ++ p4)) ++ [KCtrl (ch "}")]) ++ p5)
        with ((p1 ++ q1) ++ KErd :: q2 ++ [] ++ Open :: p3 ++ ets ++ p4 ++ Close :: p5)
        by (rewrite <- !app_assoc; cbn [app]; rewrite <- ?app_assoc; reflexivity).
      constructor; auto; try (apply Forall_app; auto). constructor.
Qed.

(** ** Completeness *)

(** [p] reads exactly the phrase [u] in front of [r]. *)
Definition eats {A} (p : parser token A) (u : list token) (a : A) (r : list token) : Prop :=
  forall o, p (mkStream (u ++ r) o) = POk [] a (mkStream r (o + length u)).
Definition fails {A} (p : parser token A) (r : list token) : Prop :=
  forall o, p (mkStream r o) = PErr.

Lemma eats_map {A B} (f : A -> B) p u a r : eats p u a r -> eats (p_map f p) u (f a) r.
Proof. intros H o. unfold p_map. rewrite H. auto. Qed.
Lemma eats_map_to {A B} a (f : A -> B) p u b r : eats p u a r -> f a = b -> eats (p_map f p) u b r.
Proof. intros H <-. now apply eats_map. Qed.
Lemma eats_to {A B} (b : B) (p : parser token A) u a r : eats p u a r -> eats (p_to b p) u b r.
Proof. intros H. apply (eats_map (fun _ => b) p u a r H). Qed.
Lemma eats_then {A B} (p : parser token A) (q : parser token B) u v a b r :
  eats p u a (v ++ r) -> eats q v b r -> eats (p_then p q) (u ++ v) (a, b) r.
Proof.
  intros Hp Hq o. unfold p_then. rewrite <- app_assoc, Hp, Hq, app_length, Nat.add_assoc. auto.
Qed.
Lemma eats_ignore_then {A B} (p : parser token A) (q : parser token B) u v a b r :
  eats p u a (v ++ r) -> eats q v b r -> eats (p_ignore_then p q) (u ++ v) b r.
Proof. intros Hp Hq. apply (eats_map snd _ _ (a, b)). now apply eats_then. Qed.
Lemma eats_then_ignore {A B} (p : parser token A) (q : parser token B) u v a b r :
  eats p u a (v ++ r) -> eats q v b r -> eats (p_then_ignore p q) (u ++ v) a r.
Proof. intros Hp Hq. apply (eats_map fst _ _ (a, b)). now apply eats_then. Qed.
Lemma eats_or_not {A} (p : parser token A) u a r : eats p u a r -> eats (p_or_not p) u (Some a) r.
Proof. intros H o. unfold p_or_not. rewrite H. auto. Qed.
Lemma eats_or_not_none {A} (p : parser token A) r : fails p r -> eats (p_or_not p) [] None r.
Proof. intros H o. unfold p_or_not. simpl. rewrite H, Nat.add_0_r. auto. Qed.
Lemma fails_map {A B} (f : A -> B) p r : fails p r -> fails (p_map f p) r.
Proof. intros H o. unfold p_map. rewrite H. auto. Qed.
Lemma fails_to {A B} (b : B) (p : parser token A) r : fails p r -> fails (p_to b p) r.
Proof. apply fails_map. Qed.
Lemma fails_choice {A} (ps : list (parser token A)) r : Forall (fun p => fails p r) ps -> fails (p_choice ps) r.
Proof. induction 1 as [|p ps Hp _ IH]; intros o; cbn [p_choice]; auto. rewrite Hp. apply IH. Qed.
Lemma fails_then_l {A B} (p : parser token A) (q : parser token B) r : fails p r -> fails (p_then p q) r.
Proof. intros H o. unfold p_then. rewrite H. auto. Qed.
Lemma fails_then_r {A B} (p : parser token A) (q : parser token B) u a r :
  eats p u a r -> fails q r -> fails (p_then p q) (u ++ r).
Proof. intros Hp Hq o. unfold p_then. rewrite Hp, Hq. auto. Qed.
Lemma eats_choice_l {A} (p : parser token A) ps u a r : eats p u a r -> eats (p_choice (p :: ps)) u a r.
Proof. intros H o. simpl. rewrite H. auto. Qed.
Lemma eats_choice_r {A} (p : parser token A) ps u a r :
  fails p (u ++ r) -> eats (p_choice ps) u a r -> eats (p_choice (p :: ps)) u a r.
Proof. intros Hp H o. cbn [p_choice]. rewrite Hp. apply H. Qed.

Lemma eats_tok t r : eats (p_tok t) [t] tt r.
Proof.
  intros o. unfold p_tok. cbn [p_just app s_rest s_off].
  rewrite (proj2 (token_eqb_spec t t) eq_refl). do 2 f_equal. simpl; lia.
Qed.
Lemma fails_tok t x r : t <> x -> fails (p_tok t) (x :: r).
Proof.
  intros H o. unfold p_tok. cbn [p_just s_rest s_off].
  destruct (token_eqb t x) eqn:E; auto. apply token_eqb_spec in E. contradiction.
Qed.
Lemma eats_ident n r : eats p_ident [KIdent n] n r.
Proof. intros o. unfold p_ident, p_filter_map. simpl. do 2 f_equal. lia. Qed.
Lemma fails_ident x r : (forall n, x <> KIdent n) -> fails p_ident (x :: r).
Proof. intros H o. unfold p_ident, p_filter_map. simpl. destruct x; auto. exfalso. eapply H; eauto. Qed.

(** [r] does not begin with a separator. *)
Definition no_sep (r : list token) : Prop := forall t r', r = t :: r' -> ~ g_sep t.

Lemma no_sep_cons t r : ~ g_sep t -> no_sep (t :: r).
Proof. intros H t' r' [= <- _]. auto. Qed.

Lemma eats_separator s r : g_sep s -> eats p_separator [s] tt r.
Proof.
  intros [].
  - apply eats_choice_l. eapply eats_to, eats_tok.
  - apply eats_choice_r; [apply fails_to, fails_tok; discriminate|].
    apply eats_choice_l. eapply eats_to, eats_tok.
Qed.
Lemma fails_separator r : no_sep r -> fails p_separator r.
Proof.
  intros H. destruct r as [|t r]; [intros o; auto|].
  apply fails_choice. repeat apply Forall_cons; try apply Forall_nil; apply fails_to, fails_tok;
    intros <-; eapply H; eauto; constructor.
Qed.
Lemma eats_pad p r : g_pad p -> no_sep r -> eats p_pad p (map (fun _ => tt) p) r.
Proof.
  induction 1 as [|s p Hs _ IH]; intros Hr o; unfold p_pad; rewrite repeated_eq by apply adv_separator.
  - simpl. rewrite fails_separator by auto. rewrite Nat.add_0_r. auto.
  - pose proof (eats_separator s (p ++ r) Hs o) as E. cbn [app] in *. rewrite E.
    fold p_pad. rewrite IH by auto. cbn [map length app]. do 2 f_equal. lia.
Qed.

Lemma eats_padded {A} (p : parser token A) p1 u p2 a r :
  g_pad p1 -> g_pad p2 -> no_sep (u ++ p2 ++ r) -> no_sep r -> eats p u a (p2 ++ r) ->
  eats (p_padded_by p p_pad) (p1 ++ u ++ p2) a r.
Proof.
  intros H1 H2 N1 N2 H. rewrite app_assoc. eapply eats_then_ignore.
  - eapply eats_ignore_then; [|exact H]. now apply eats_pad.
  - now apply eats_pad.
Qed.

Lemma eats_type t ty r : g_type t ty -> eats p_field_type [t] ty r.
Proof.
  unfold p_field_type. intros [];
    repeat first [ apply eats_choice_l; eapply eats_to, eats_tok
                 | apply eats_choice_r; [apply fails_to, fails_tok; discriminate|] ].
Qed.
Lemma eats_key t k r : g_key t k -> eats p_field_key [t] k r.
Proof.
  unfold p_field_key. intros [];
    repeat first [ apply eats_choice_l; eapply eats_to, eats_tok
                 | apply eats_choice_r; [apply fails_to, fails_tok; discriminate|] ].
Qed.
Lemma fails_key x r : (forall k, ~ g_key x k) -> fails p_field_key (x :: r).
Proof.
  intros H.
  apply fails_choice. repeat apply Forall_cons; try apply Forall_nil; apply fails_to, fails_tok;
    intros <-; eapply H; constructor.
Qed.

(** What follows an item of a list: a separator or the closing brace. *)
Definition stop (r : list token) : Prop := exists t r', r = t :: r' /\ (g_sep t \/ t = Close).

Lemma stop_head t r' : stop (t :: r') ->
  (forall n, t <> KIdent n) /\ (forall k, ~ g_key t k) /\ t <> Dot /\ t <> Open.
Proof.
  intros (t' & r'' & [= <- <-] & [[]| ->]); repeat split; try discriminate;
    intros k H; inversion H.
Qed.

Lemma eats_path ts p r : g_path ts p -> (forall n r', r <> KIdent n :: r') -> eats p_entity_path ts p r.
Proof.
  intros [e|e f] Hr; unfold p_entity_path.
  - apply (eats_map_to (e, None)); [|reflexivity].
    change [KIdent e; Dot] with ([KIdent e] ++ [Dot]). apply eats_then; [apply eats_ident|].
    change [Dot] with ([Dot] ++ []). eapply eats_ignore_then; [apply eats_tok|].
    apply eats_or_not_none. intros o. destruct r as [|x r]; auto.
    apply fails_ident. intros n ->. eapply Hr; eauto.
  - apply (eats_map_to (e, Some f)); [|reflexivity].
    change [KIdent e; Dot; KIdent f] with ([KIdent e] ++ [Dot] ++ [KIdent f]).
    apply eats_then; [apply eats_ident|]. eapply eats_ignore_then; [apply eats_tok|].
    apply eats_or_not, eats_ident.
Qed.

Lemma eats_field ts f r : g_field ts f -> stop r -> eats p_entity_field ts f r.
Proof.
  intros H (x & r' & -> & Hx). assert (forall k, ~ g_key x k) as Nk.
  { apply (stop_head x r'). exists x, r'. auto. }
  unfold p_entity_field. destruct H as [n t ty Ht|n t ty k key Ht Hk].
  - apply (eats_map_to ((n, ty), None)); [|reflexivity].
    change [KIdent n; t] with (([KIdent n] ++ [t]) ++ []). apply eats_then.
    + apply eats_then; [apply eats_ident|now apply eats_type].
    + apply eats_or_not_none. now apply fails_key.
  - apply (eats_map_to ((n, ty), Some key)); [|reflexivity].
    change [KIdent n; t; k] with (([KIdent n] ++ [t]) ++ [k]). apply eats_then.
    + apply eats_then; [apply eats_ident|now apply eats_type].
    + apply eats_or_not. now apply eats_key.
Qed.

Lemma not_sep_ident n : ~ g_sep (KIdent n).
Proof. intros H; inversion H. Qed.
Lemma not_sep_close : ~ g_sep Close.
Proof. intros H; inversion H. Qed.
Lemma not_sep_open : ~ g_sep Open.
Proof. intros H; inversion H. Qed.
Lemma not_sep_edge : ~ g_sep KEdge.
Proof. intros H; inversion H. Qed.
Lemma not_sep_erd : ~ g_sep KErd.
Proof. intros H; inversion H. Qed.

(** Lists of items, read by [p_chain p (p_sep_rest p)]. *)
Section Lists.
  Context {A : Type} (p : parser token A) (R : list token -> A -> Prop).
  Hypothesis Hadv : adv p.
  Hypothesis Hitem : forall ts a r, R ts a -> stop r -> eats p ts a r.
  Hypothesis Hhead : forall ts a, R ts a -> exists n ts', ts = KIdent n :: ts'.
  Hypothesis Hother : forall x r, (forall n, x <> KIdent n) -> fails p (x :: r).

  Lemma close_fails r : fails p (Close :: r).
  Proof. apply Hother. discriminate. Qed.

  Lemma sep_item_fails q r : g_pad q -> fails p r -> no_sep r ->
    fails (p_ignore_then (p_ignore_then p_separator p_pad) p) (q ++ r).
  Proof.
    intros Hq Hf Hr. destruct Hq as [|s q Hs Hq].
    - now apply fails_map, fails_then_l, fails_map, fails_then_l, fails_separator.
    - apply fails_map. cbn [app]. change (s :: q ++ r) with (([s] ++ q) ++ r).
      eapply fails_then_r; [|exact Hf].
      eapply eats_ignore_then; [now apply eats_separator|].
      now apply eats_pad.
  Qed.

  Lemma list_nosep ts l r : g_list R ts l -> no_sep (ts ++ r).
  Proof.
    intros H. assert (exists n ts', ts = KIdent n :: ts') as (n & ts' & ->).
    { destruct H as [ts a Ha|ts a s q us l Ha _ _ _]; destruct (Hhead _ _ Ha) as (n & ts' & ->); simpl; eauto. }
    apply no_sep_cons, not_sep_ident.
  Qed.

  (** the tail { SEP, PAD, item } *)
  Inductive g_tail : list token -> list A -> Prop :=
  | tail_nil : g_tail [] []
  | tail_cons s q ts a us l :
      g_sep s -> g_pad q -> R ts a -> g_tail us l -> g_tail (s :: q ++ ts ++ us) (a :: l).

  Lemma list_tail ts l : g_list R ts l -> exists u a us l', ts = u ++ us /\ l = a :: l' /\ R u a /\ g_tail us l'.
  Proof.
    induction 1 as [ts a Ha|ts a s q us l Ha Hs Hq _ IH].
    - exists ts, a, [], []. rewrite app_nil_r. repeat split; auto. constructor.
    - destruct IH as (u & b & vs & l' & -> & -> & Rb & T).
      exists ts, a, (s :: q ++ u ++ vs), (b :: l'). repeat split; auto. constructor; auto.
  Qed.

  Lemma pad_stop q r : g_pad q -> stop (q ++ Close :: r).
  Proof. intros [|s q' Hs _]; simpl; eexists _, _; split; eauto. Qed.

  Lemma tail_stop us l q : g_tail us l -> stop q -> stop (us ++ q).
  Proof.
    intros [|s q' ts a us' l' Hs _ _ _] Hq; auto.
    simpl. eexists _, _; split; eauto.
  Qed.

  (** A list, then separators, then something that is no item. *)
  Lemma eats_tail_stop us l q r : g_tail us l -> g_pad q -> fails p r -> no_sep r -> stop (q ++ r) ->
    eats (p_sep_rest p) us l (q ++ r).
  Proof.
    intros T Hq Hf Hr Hs'. induction T as [|s q' ts a us l Hs Hq' Ra T IH]; intros o;
      unfold p_sep_rest; rewrite repeated_eq by (now apply adv_sep_item).
    - cbn [app]. rewrite sep_item_fails by auto. rewrite Nat.add_0_r. auto.
    - destruct (Hhead _ _ Ra) as (n & ts' & Ets).
      assert (eats (p_ignore_then (p_ignore_then p_separator p_pad) p) (([s] ++ q') ++ ts) a
                   (us ++ q ++ r)) as E.
      { eapply eats_ignore_then.
        - eapply eats_ignore_then; [now apply eats_separator|].
          apply eats_pad; auto. rewrite Ets. apply no_sep_cons, not_sep_ident.
        - apply Hitem; auto. now apply tail_stop with (l := l). }
      replace ((s :: q' ++ ts ++ us) ++ q ++ r)
        with ((([s] ++ q') ++ ts) ++ us ++ q ++ r)
        by (cbn [app]; rewrite <- !app_assoc; auto).
      rewrite E. fold (p_sep_rest p). rewrite IH. do 2 f_equal.
      cbn [app length]. rewrite !app_length. lia.
  Qed.

  Lemma eats_list_stop ts l q r : g_list R ts l -> g_pad q -> fails p r -> no_sep r -> stop (q ++ r) ->
    eats (p_chain p (p_sep_rest p)) ts l (q ++ r).
  Proof.
    intros H Hq Hf Hr Hs. apply list_tail in H as (u & a & us & l' & -> & -> & Ra & T).
    unfold p_chain. apply (eats_map (fun ab : A * list A => fst ab :: snd ab) _ _ (a, l')).
    apply eats_then; [|now apply eats_tail_stop].
    apply Hitem; auto. now apply tail_stop with (l := l').
  Qed.

  Lemma eats_list ts l q r : g_list R ts l -> g_pad q ->
    eats (p_chain p (p_sep_rest p)) ts l (q ++ Close :: r).
  Proof.
    intros H Hq. apply eats_list_stop; auto using close_fails, pad_stop.
    apply no_sep_cons, not_sep_close.
  Qed.

  Lemma eats_items ts l q r : g_items R ts l -> g_pad q ->
    exists o, eats (p_or_not (p_chain p (p_sep_rest p))) ts o (q ++ Close :: r) /\ unwrap_or_nil o = l.
  Proof.
    intros [|ts' l' H] Hq.
    - exists None. split; auto. apply eats_or_not_none, fails_map, fails_then_l.
      destruct Hq as [|s q Hs Hq]; [apply close_fails|].
      cbn [app]. apply Hother. intros n ->. now apply not_sep_ident in Hs.
    - exists (Some l'). split; auto. apply eats_or_not. now apply eats_list.
  Qed.

  Lemma items_nosep ts l q r : g_items R ts l -> g_pad q -> no_sep r ->
    no_sep (ts ++ q ++ r) \/ ts = [].
  Proof. intros [|ts' l' H] Hq Hr; auto. left. now apply list_nosep with (l := l'). Qed.
End Lists.

Lemma eats_padded_items {A} (p : parser token (option (list A))) p1 ts p2 o r :
  g_pad p1 -> g_pad p2 -> (no_sep (ts ++ p2 ++ Close :: r) \/ ts = []) ->
  (forall q, g_pad q -> eats p ts o (q ++ Close :: r)) ->
  eats (p_padded_by p p_pad) (p1 ++ ts ++ p2) o (Close :: r).
Proof.
  intros H1 H2 [N|E] H.
  - apply eats_padded; auto. apply no_sep_cons, not_sep_close.
  - subst ts. cbn [app].
    replace (p1 ++ p2) with ((p1 ++ p2) ++ [] ++ []) by (cbn [app]; now rewrite app_nil_r).
    apply eats_padded; try (cbn [app]; apply no_sep_cons, not_sep_close).
    + apply Forall_app; auto.
    + constructor.
    + apply (H []). constructor.
Qed.

Lemma field_head ts f : g_field ts f -> exists n ts', ts = KIdent n :: ts'.
Proof. intros []; eauto. Qed.
Lemma fails_field x r : (forall n, x <> KIdent n) -> fails p_entity_field (x :: r).
Proof. intros H. apply fails_map, fails_then_l, fails_then_l. now apply fails_ident. Qed.

Lemma eats_entity_fields p1 fts fs p2 r :
  g_pad p1 -> g_items g_field fts fs -> g_pad p2 ->
  eats p_entity_fields (p1 ++ fts ++ p2) fs (Close :: r).
Proof.
  intros H1 Hf H2. unfold p_entity_fields.
  destruct (eats_items p_entity_field g_field adv_entity_field eats_field field_head fails_field
              fts fs [] r Hf (Forall_nil _)) as (o & _ & Eo).
  assert (forall q, g_pad q ->
            eats (p_or_not (p_chain p_entity_field (p_sep_rest p_entity_field))) fts
                 (match fs with [] => None | _ => Some fs end) (q ++ Close :: r)) as K.
  { intros q Hq. destruct Hf as [|fts fs Hl].
    - apply eats_or_not_none. destruct Hq as [|s q Hs Hq]; apply fails_map, fails_then_l, fails_field.
      + discriminate.
      + intros n ->. now apply not_sep_ident in Hs.
    - destruct fs; [inversion Hl|]. apply eats_or_not.
      now apply (eats_list p_entity_field g_field adv_entity_field eats_field field_head fails_field). }
  eapply eats_map_to; [eapply eats_padded_items; eauto|destruct fs; auto].
  apply (items_nosep g_field field_head fts fs p2 (Close :: r)); auto.
  apply no_sep_cons, not_sep_close.
Qed.

Lemma eats_definition ts d r : g_def ts d -> eats p_entity_definition ts d r.
Proof.
  intros [n p1 p2 fts fs p3 H1 H2 Hf H3]. unfold p_entity_definition.
  apply (eats_map_to (n, fs)); [|apply fold_add_field].
  replace (KIdent n :: p1 ++ Open :: p2 ++ fts ++ p3 ++ [Close])
    with (((([KIdent n] ++ p1) ++ [Open]) ++ (p2 ++ fts ++ p3)) ++ [Close])
    by (rewrite <- !app_assoc; reflexivity).
  eapply eats_then_ignore; [|apply eats_tok].
  apply eats_then; [|apply eats_entity_fields; auto].
  eapply eats_then_ignore; [|apply eats_tok].
  eapply eats_then_ignore; [apply eats_ident|].
  apply eats_pad; auto. apply no_sep_cons, not_sep_open.
Qed.

Lemma path_head ts p : g_path ts p -> exists e ts', ts = KIdent e :: Dot :: ts'.
Proof. intros []; eauto. Qed.

Lemma eats_rel ts a r : g_rel ts a -> stop r -> eats p_relation ts a r.
Proof.
  intros [ts' a' p1 p2 us b Ha H1 H2 Hb] Hr. unfold p_relation.
  apply (eats_map_to (a', b)); [|reflexivity].
  replace (ts' ++ p1 ++ KEdge :: p2 ++ us) with (ts' ++ (p1 ++ [KEdge] ++ p2) ++ us)
    by (rewrite <- !app_assoc; reflexivity).
  apply eats_then.
  - apply eats_path; auto. rewrite <- !app_assoc. intros n r' E.
    destruct H1 as [|s p1 Hs _]; simpl in E; [discriminate|].
    injection E as -> _. now apply not_sep_ident in Hs.
  - eapply eats_ignore_then.
    + apply eats_padded; auto.
      * apply no_sep_cons, not_sep_edge.
      * apply path_head in Hb as (e & ts'' & ->). apply no_sep_cons, not_sep_ident.
      * apply eats_tok.
    + apply eats_path; auto. intros n r' ->. apply stop_head in Hr as [Hr _]. now apply (Hr n).
Qed.

Lemma def_fails_path e r : fails p_entity_definition (KIdent e :: Dot :: r).
Proof.
  apply fails_map, fails_map, fails_then_l, fails_then_l, fails_map.
  change (KIdent e :: Dot :: r) with (([KIdent e] ++ []) ++ Dot :: r).
  eapply fails_then_r; [|apply fails_tok; discriminate].
  eapply eats_then_ignore; [apply eats_ident|].
  apply eats_pad; [constructor|]. apply no_sep_cons. intros H; inversion H.
Qed.

Lemma eats_entry ts e r : g_entry ts e -> stop r -> eats p_module_entry ts e r.
Proof.
  intros [ts' d Hd|ts' a Ha] Hr; unfold p_module_entry.
  - apply eats_choice_l, eats_map. now apply eats_definition.
  - apply eats_choice_r; [|apply eats_choice_l, eats_map; now apply eats_rel].
    destruct Ha as [vs a p1 p2 us b Ha _ _ _]. apply path_head in Ha as (n & ts'' & ->).
    apply fails_map, def_fails_path.
Qed.

Lemma entry_head ts e : g_entry ts e -> exists n ts', ts = KIdent n :: ts'.
Proof.
  intros [ts' d []|ts' a [us x p1 p2 vs b Hx _ _ _]]; eauto.
  apply path_head in Hx as (n & us' & ->). simpl. eauto.
Qed.
Lemma fails_path x r : (forall n, x <> KIdent n) -> fails p_entity_path (x :: r).
Proof. intros H. apply fails_map, fails_then_l. now apply fails_ident. Qed.
Lemma fails_entry x r : (forall n, x <> KIdent n) -> fails p_module_entry (x :: r).
Proof.
  intros H. apply fails_choice. repeat apply Forall_cons; try apply Forall_nil; apply fails_map.
  - apply fails_map, fails_map, fails_then_l, fails_then_l, fails_map, fails_then_l, fails_map, fails_then_l.
    now apply fails_ident.
  - apply fails_map, fails_then_l. now apply fails_path.
Qed.

Lemma eats_entries ets es q r :
  g_items g_entry ets es -> g_pad q -> eats p_module_entries ets es (q ++ Close :: r).
Proof.
  intros He Hq. unfold p_module_entries.
  destruct (eats_items p_module_entry g_entry adv_module_entry eats_entry entry_head fails_entry
              ets es q r He Hq) as (o & Ho & Eo).
  eapply eats_map_to; eauto.
Qed.

Lemma eats_padded_entries p1 ets es p2 r :
  g_pad p1 -> g_items g_entry ets es -> g_pad p2 ->
  eats (p_padded_by p_module_entries p_pad) (p1 ++ ets ++ p2) es (Close :: r).
Proof.
  intros H1 He H2.
  destruct (items_nosep g_entry entry_head ets es p2 (Close :: r)) as [N|E]; auto.
  { apply no_sep_cons, not_sep_close. }
  - apply eats_padded; auto; [apply no_sep_cons, not_sep_close|now apply eats_entries].
  - subst ets. cbn [app].
    replace (p1 ++ p2) with ((p1 ++ p2) ++ [] ++ []) by (cbn [app]; now rewrite app_nil_r).
    apply eats_padded; try (cbn [app]; apply no_sep_cons, not_sep_close).
    + apply Forall_app; auto.
    + constructor.
    + apply (eats_entries [] es []); auto. constructor.
Qed.

Lemma name_nosep nts n r : g_name nts n -> no_sep (nts ++ Open :: r).
Proof. intros []; apply no_sep_cons; [apply not_sep_open|apply not_sep_ident]. Qed.

Lemma eats_name nts n r : g_name nts n -> eats (p_or_not (p_padded_by p_ident p_pad)) nts n (Open :: r).
Proof.
  intros [|m p Hp].
  - apply eats_or_not_none. apply fails_map, fails_then_l, fails_map.
    apply (fails_then_r p_pad p_ident [] []); [|apply fails_ident; discriminate].
    apply eats_pad; [constructor|apply no_sep_cons, not_sep_open].
  - apply eats_or_not. change (KIdent m :: p) with ([] ++ [KIdent m] ++ p).
    apply eats_padded; auto.
    + constructor.
    + apply no_sep_cons, not_sep_ident.
    + apply no_sep_cons, not_sep_open.
    + apply eats_ident.
Qed.

(** Everything up to the closing brace. *)
Lemma eats_module_body p2 nts n p3 ets es p4 r :
  g_pad p2 -> g_name nts n -> g_pad p3 -> g_items g_entry ets es -> g_pad p4 ->
  eats (p_then_ignore
          (p_then
             (p_then_ignore
                (p_ignore_then (p_padded_by (p_tok KErd) p_pad)
                   (p_or_not (p_padded_by p_ident p_pad)))
                (p_ctrl "{"))
             (p_padded_by p_module_entries p_pad))
          (p_ctrl "}"))
    (KErd :: p2 ++ nts ++ Open :: p3 ++ ets ++ p4 ++ [Close]) (n, es) r.
Proof.
  intros H2 Hn H3 He H4.
  replace (KErd :: p2 ++ nts ++ Open :: p3 ++ ets ++ p4 ++ [Close])
    with ((((([] ++ [KErd] ++ p2) ++ nts) ++ [Open]) ++ (p3 ++ ets ++ p4)) ++ [Close])
    by (rewrite <- !app_assoc; reflexivity).
  eapply eats_then_ignore; [|apply eats_tok].
  apply eats_then; [|apply eats_padded_entries; auto].
  eapply eats_then_ignore; [|apply eats_tok].
  eapply eats_ignore_then.
  - apply eats_padded; auto.
    + constructor.
    + apply no_sep_cons, not_sep_erd.
    + cbn [app]. now apply name_nosep with (n := n).
    + apply eats_tok.
  - cbn [app]. now apply eats_name.
Qed.

Lemma lead_seps_spec l : exists p r, l = p ++ r /\ g_pad p /\ no_sep r.
Proof.
  induction l as [|t l (p & r & -> & Hp & Hr)].
  - exists [], []. repeat split; [constructor|discriminate].
  - assert ((exists x, g_sep x /\ x = t) \/ ~ g_sep t) as [(x & Hx & ->)|N].
    { destruct t; try (right; intros H; inversion H; fail).
      - destruct (N.eq_dec c (ch ";")) as [->|N].
        + left. exists Semi. split; [constructor|auto].
        + right. intros H. apply N. now inversion H.
      - left. exists KNewline. split; [constructor|auto]. }
    + exists (t :: p), r. repeat split; auto. constructor; auto.
    + exists [], (t :: p ++ r). repeat split; [constructor|]. now apply no_sep_cons.
Qed.

Theorem complete_erd_module ts m rest o :
  g_module ts m ->
  exists s', erd_module_parser (mkStream (ts ++ rest) o) = POk [] m s'.
Proof.
  intros [p1 p2 nts n p3 ets es p4 p5 H1 H2 Hn H3 He H4 H5].
  destruct (lead_seps_spec (p5 ++ rest)) as (q & r & Eq & Hq & Nr).
  exists (mkStream r (o + length (p1 ++ (KErd :: p2 ++ nts ++ Open :: p3 ++ ets ++ p4 ++ [Close]) ++ q))).
  replace ((p1 ++ KErd :: p2 ++ nts ++ Open :: p3 ++ ets ++ p4 ++ Close :: p5) ++ rest)
    with ((p1 ++ (KErd :: p2 ++ nts ++ Open :: p3 ++ ets ++ p4 ++ [Close]) ++ q) ++ r).
  2:{ rewrite <- !app_assoc. cbn [app]. rewrite <- !app_assoc. cbn [app]. rewrite <- !app_assoc.
      cbn [app]. rewrite <- Eq, <- ?app_assoc. reflexivity. }
  revert o. apply (eats_map_to (n, es)); [|apply fold_add_entry].
  apply eats_padded; auto.
  - apply no_sep_cons, not_sep_erd.
  - now apply eats_module_body.
Qed.

(** ** Rejection: a name followed by neither a brace nor a dot *)

Lemma entry_fails_name a p x r :
  g_pad p -> ~ g_sep x -> x <> Open -> x <> Dot -> fails p_module_entry (KIdent a :: p ++ x :: r).
Proof.
  intros Hp Hx Ho Hd. apply fails_choice. repeat apply Forall_cons; try apply Forall_nil; apply fails_map.
  - apply fails_map, fails_map, fails_then_l, fails_then_l, fails_map.
    change (KIdent a :: p ++ x :: r) with (([KIdent a] ++ p) ++ x :: r).
    eapply fails_then_r; [|apply fails_tok; auto].
    eapply eats_then_ignore; [apply eats_ident|].
    apply eats_pad; auto. now apply no_sep_cons.
  - apply fails_map, fails_then_l, fails_map.
    change (KIdent a :: p ++ x :: r) with ([KIdent a] ++ p ++ x :: r).
    eapply fails_then_r; [apply eats_ident|]. apply fails_map, fails_then_l.
    destruct Hp as [|s p Hs _]; cbn [app]; apply fails_tok; auto.
    intros <-. inversion Hs.
Qed.

Lemma fails_padded_in {A} (p : parser token A) p1 r :
  g_pad p1 -> no_sep r -> fails p r -> fails (p_padded_by p p_pad) (p1 ++ r).
Proof.
  intros H1 Hr H. apply fails_map, fails_then_l, fails_map. eapply fails_then_r; eauto.
  now apply eats_pad.
Qed.

Theorem rejects_bare_name p1 p2 nts n p3 pre a p x r o :
  g_pad p1 -> g_pad p2 -> g_name nts n -> g_pad p3 -> before_entry pre -> g_pad p ->
  ~ g_sep x -> x <> Open -> x <> Dot ->
  erd_module_parser
    (mkStream (p1 ++ KErd :: p2 ++ nts ++ Open :: p3 ++ pre ++ KIdent a :: p ++ x :: r) o) = PErr.
Proof.
  intros H1 H2 Hn H3 Hpre Hp Hx Hxo Hxd. revert o. apply fails_map.
  apply fails_padded_in; auto; [apply no_sep_cons, not_sep_erd|].
  pose (bad := KIdent a :: p ++ x :: r). fold bad.
  assert (fails p_module_entry bad) as Fb by (now apply entry_fails_name).
  assert (no_sep bad) as Nb by apply no_sep_cons, not_sep_ident.
  assert (exists es, eats (p_padded_by p_module_entries p_pad) (p3 ++ pre) es bad) as (es & Ees).
  { destruct Hpre as [|ts es s q Hl Hs Hq].
    - exists []. replace (p3 ++ []) with (p3 ++ [] ++ []) by (now rewrite !app_nil_r).
      apply eats_padded; auto; [constructor|].
      cbn [app]. apply (eats_map_to None); auto.
      apply eats_or_not_none, fails_map, fails_then_l. auto.
    - exists es. apply eats_padded; auto.
      + constructor; auto.
      + apply (list_nosep g_entry entry_head ts es); auto.
      + apply (eats_map_to (Some es)); auto. apply eats_or_not.
        apply (eats_list_stop p_module_entry g_entry adv_module_entry eats_entry entry_head); auto.
        * constructor; auto.
        * exists s, (q ++ bad). auto. }
  replace (KErd :: p2 ++ nts ++ Open :: p3 ++ pre ++ bad)
    with (((([KErd] ++ p2) ++ nts ++ [Open]) ++ p3 ++ pre) ++ bad)
    by (repeat (rewrite <- !app_assoc; cbn [app]); reflexivity).
  apply fails_map. eapply fails_then_r; [|apply fails_tok; discriminate].
  apply eats_then; [|exact Ees].
  rewrite app_assoc. eapply eats_then_ignore; [|apply eats_tok].
  eapply eats_ignore_then.
  - change ([KErd] ++ p2) with ([] ++ [KErd] ++ p2). apply eats_padded; auto.
    + constructor.
    + apply no_sep_cons, not_sep_erd.
    + repeat (rewrite <- !app_assoc; cbn [app]). eapply name_nosep; eauto.
    + apply eats_tok.
  - cbn [app]. apply eats_name; eauto.
Qed.
