(** [place_nodes] and [place_terminal_ports] on the document of a module, as
    explicit lists of updates. *)
From Coq Require Import List Arith NArith ZArith Bool Lia FinFun.
From Verif Require Import Base F32 Geometry Mir Erd SpecMir MirFacts Heap Route Layout.
Import ListNotations.

(** ** Shape of a document *)
Definition skel (n : node_data) := (n_kind n, n_children n).
Definition sk (d : document) (i : node_id) := option_map skel (get_node d i).
Definition same_shape (d d' : document) : Prop := forall i, sk d i = sk d' i.

Lemma sk_update d i f j :
  (forall n, skel (f n) = skel n) -> sk (update_node d i f) j = sk d j.
Proof.
  intros H. unfold sk, get_node, update_node. cbn [d_nodes].
  destruct (Nat.eq_dec i j) as [->|N].
  - rewrite nth_update_same. destruct (nth_error (d_nodes d) j); cbn; [now rewrite H|reflexivity].
  - now rewrite nth_update_other.
Qed.

Lemma sk_body d d' : same_shape d d' -> body_children d = body_children d'.
Proof.
  intros H. specialize (H 0). unfold sk, body_children in *.
  destruct (get_node d 0) as [n|], (get_node d' 0) as [n'|]; cbn in H; unfold skel in H;
    try discriminate; [injection H; auto|reflexivity].
Qed.

Lemma same_shape_trans a b c : same_shape a b -> same_shape b c -> same_shape a c.
Proof. intros H1 H2 i. now rewrite H1. Qed.

Definition geo := (point * size)%type.
Definition apply_geo (l : list (node_id * geo)) (d : document) : document :=
  fold_left (fun d p => update_node d (fst p) (set_geometry (fst (snd p)) (snd (snd p)))) l d.

Lemma apply_geo_app l1 l2 d : apply_geo (l1 ++ l2) d = apply_geo l2 (apply_geo l1 d).
Proof. apply fold_left_app. Qed.

Lemma apply_geo_shape l : forall d, same_shape (apply_geo l d) d.
Proof.
  induction l as [|p l IH]; intros d i; [reflexivity|].
  cbn [apply_geo fold_left]. fold (apply_geo l). rewrite IH. now apply sk_update.
Qed.

Lemma apply_geo_edges l : forall d, d_edges (apply_geo l d) = d_edges d.
Proof. induction l as [|p l IH]; intros d; [reflexivity|]. cbn [apply_geo fold_left]. fold (apply_geo l). now rewrite IH. Qed.

Definition nlookup {V} (i : nat) (l : list (nat * V)) : option V := assoc Nat.eqb i l.

Lemma nlookup_in {V} i (l : list (nat * V)) v : NoDup (map fst l) -> In (i, v) l -> nlookup i l = Some v.
Proof.
  unfold nlookup. induction l as [|[k w] l IH]; intros N H; [destruct H|].
  cbn in *. apply NoDup_cons_iff in N as [Nk N]. destruct H as [[= -> ->]|H].
  - now rewrite Nat.eqb_refl.
  - destruct (Nat.eqb_spec i k) as [->|]; auto.
    elim Nk. now apply (in_map fst) in H.
Qed.

Lemma nlookup_none {V} i (l : list (nat * V)) : ~ In i (map fst l) -> nlookup i l = None.
Proof.
  unfold nlookup. induction l as [|[k w] l IH]; intros H; [reflexivity|].
  cbn in *. destruct (Nat.eqb_spec i k) as [->|]; [tauto|]. apply IH. tauto.
Qed.

Lemma nlookup_some {V} i (l : list (nat * V)) v : nlookup i l = Some v -> In (i, v) l.
Proof.
  unfold nlookup. induction l as [|[k w] l IH]; intros H; [discriminate|].
  cbn in *. destruct (Nat.eqb_spec i k) as [->|]; [injection H as ->|]; auto.
Qed.

Lemma get_apply_geo l : forall d i, NoDup (map fst l) ->
  get_node (apply_geo l d) i =
  match nlookup i l with
  | Some (o, s) => option_map (set_geometry o s) (get_node d i)
  | None => get_node d i
  end.
Proof.
  induction l as [|[k [o s]] l IH]; intros d i N; [reflexivity|].
  cbn [map fst] in N. apply NoDup_cons_iff in N as [Nk N].
  cbn [apply_geo fold_left]. fold (apply_geo l). rewrite IH by trivial.
  unfold nlookup in *. cbn [assoc fst snd].
  unfold get_node, update_node. cbn [d_nodes].
  destruct (Nat.eqb_spec i k) as [->|Hn].
  - fold (nlookup k l). rewrite nlookup_none by trivial. now rewrite nth_update_same.
  - destruct (assoc Nat.eqb i l) as [[o' s']|]; now rewrite nth_update_other by congruence.
Qed.

(** ** place_nodes *)
Definition rows (e : entity_definition) : nat := S (length (ent_fields e)).

Definition advance (i : nat) (y m : f32) : f32 * f32 :=
  if Nat.ltb 0 i && Nat.eqb (i mod GRID_N_COLUMNS) 0
  then (fadd y (fadd m RECORD_SPACE), F_MIN) else (y, m).
Definition table_x (i : nat) : f32 :=
  fadd (px ORIGIN) (fmul (fadd RECORD_WIDTH RECORD_SPACE) (f32_of_nat (i mod GRID_N_COLUMNS))).
Definition table_h (n : nat) : f32 := fmul LINE_HEIGHT (f32_of_nat n).
Definition row_y (y : f32) (k : nat) : f32 := fadd y (fmul LINE_HEIGHT (f32_of_nat k)).

Definition four_ports (r : rect) := [port_up r; port_right r; port_down r; port_left r].

Definition row_geo (i : nat) (y : f32) (k : nat) : geo :=
  (mkPoint (table_x i) (row_y y k), mkSize RECORD_WIDTH LINE_HEIGHT).
Definition table_geo (i : nat) (y : f32) (e : entity_definition) : geo :=
  (mkPoint (table_x i) y, mkSize RECORD_WIDTH (table_h (rows e))).
Definition entity_log (i b : nat) (y : f32) (e : entity_definition) : list (node_id * geo) :=
  (record_at b e, table_geo i y e) :: map (fun k => (b + k, row_geo i y k)) (seq 0 (rows e)).

(** The y coordinates of the tables from index [i] on, and the final state. *)
Fixpoint grid_ys (i : nat) (y m : f32) (ds : list entity_definition) : list f32 :=
  match ds with
  | [] => []
  | e :: ds' => let '(y1, m1) := advance i y m in y1 :: grid_ys (S i) y1 (fmax (table_h (rows e)) m1) ds'
  end.
Fixpoint grid_end (i : nat) (y m : f32) (ds : list entity_definition) : f32 * f32 :=
  match ds with
  | [] => (y, m)
  | e :: ds' => let '(y1, m1) := advance i y m in grid_end (S i) y1 (fmax (table_h (rows e)) m1) ds'
  end.
Fixpoint grid_log {V} (L : nat -> nat -> f32 -> entity_definition -> list (node_id * V))
    (i b : nat) (ys : list f32) (ds : list entity_definition) {struct ds} : list (node_id * V) :=
  match ds, ys with
  | e :: ds', y :: ys' => L i b y e ++ grid_log L (S i) (b + node_count e) ys' ds'
  | _, _ => []
  end.
Notation place_log := (grid_log entity_log).

(** The same for the ports of one entity. *)
Definition port_spec := (f32 * f32 * orientation)%type.
Definition geo_rect (g : geo) : rect := mkRect (fst g) (snd g).
Definition entity_ports (i b : nat) (y : f32) (e : entity_definition) : list (node_id * list port_spec) :=
  (record_at b e, four_ports (geo_rect (table_geo i y e))) ::
  map (fun k => (b + k, field_ports (rows e) k (geo_rect (row_geo i y k)))) (seq 0 (rows e)).

Lemma enum_seq b n : forall i, enum_from i (seq b n) = map (fun k => (i + k, b + k)) (seq 0 n).
Proof.
  revert b. induction n as [|n IH]; intros b i; [reflexivity|].
  cbn [seq enum_from map]. rewrite IH, !Nat.add_0_r. f_equal.
  rewrite <- seq_shift, map_map. apply map_ext. intros k. f_equal; lia.
Qed.

Lemma sk_some d i k c : sk d i = Some (k, c) -> exists n, get_node d i = Some n /\ n_kind n = k /\ n_children n = c.
Proof.
  unfold sk. destruct (get_node d i) as [n|]; cbn; [|discriminate].
  intros [= <- <-]. eauto.
Qed.

Lemma sk_header ds E d a e c : same_shape d (doc_of ds E) -> ds = a ++ e :: c ->
  sk d (base a) = Some (KField (header_shape (ent_name e)), []).
Proof. intros H Hd. rewrite H. unfold sk. now rewrite (get_header ds E a e c Hd). Qed.

Lemma sk_row ds E d a e c k : same_shape d (doc_of ds E) -> ds = a ++ e :: c -> k < rows e ->
  exists f, sk d (base a + k) = Some (KField f, []).
Proof.
  intros H Hd Hk. destruct k as [|k].
  - rewrite Nat.add_0_r, (sk_header ds E d a e c H Hd). eauto.
  - rewrite H. destruct (nth_error (ent_fields e) k) as [f|] eqn:Ef.
    + replace (base a + S k) with (base a + 1 + k) by lia.
      unfold sk. rewrite (get_column ds E a e c k f Hd Ef). exists (column_shape f). reflexivity.
    + apply nth_error_None in Ef. unfold rows in Hk. lia.
Qed.

Lemma sk_record ds E d a e c : same_shape d (doc_of ds E) -> ds = a ++ e :: c ->
  sk d (record_at (base a) e) = Some (KRecord table_shape, seq (base a) (rows e)).
Proof. intros H Hd. rewrite H. unfold sk. now rewrite (get_record ds E a e c Hd). Qed.

Lemma place_fields i y b : forall l d,
  (forall k, In k l -> exists f, sk d (b + k) = Some (KField f, [])) ->
  fold_left (place_field (table_x i) y) (map (fun k => (k, b + k)) l) d =
  apply_geo (map (fun k => (b + k, row_geo i y k)) l) d.
Proof.
  induction l as [|k l IH]; intros d H; [reflexivity|].
  cbn [map fold_left apply_geo]. fold (apply_geo (map (fun k => (b + k, row_geo i y k)) l)).
  destruct (H k) as (f & Hf); [now left|]. apply sk_some in Hf as (n & En & Kn & _).
  unfold place_field at 2. rewrite En, Kn. cbn [fst snd row_geo].
  apply IH. intros k' Hk'. destruct (H k') as (f' & Hf'); [now right|].
  exists f'. now rewrite sk_update.
Qed.

Lemma place_record_eq ds E d a e c y m :
  same_shape d (doc_of ds E) -> ds = a ++ e :: c ->
  place_record (d, y, m) (@pair nat node_id (length a) (record_at (base a) e)) =
  let '(y1, m1) := advance (length a) y m in
  (apply_geo (entity_log (length a) (base a) y1 e) d, y1, fmax (table_h (rows e)) m1).
Proof.
  intros H Hd. pose proof (sk_record ds E d a e c H Hd) as Hr.
  apply sk_some in Hr as (n & En & Kn & Cn).
  unfold place_record, advance.
  destruct (Nat.ltb 0 (length a) && Nat.eqb (length a mod GRID_N_COLUMNS) 0);
    rewrite En, Kn, Cn, seq_length; unfold enum; rewrite enum_seq;
    change (fun k => (0 + k, base a + k)) with (fun k => (k, base a + k));
    fold (table_x (length a)); fold (table_h (rows e));
    rewrite place_fields; try reflexivity;
    intros k Hk; apply in_seq in Hk; rewrite sk_update by reflexivity;
    apply (sk_row ds E d a e c k H Hd); lia.
Qed.

Lemma record_ids_cons a e c : record_ids (base a) (e :: c) = record_at (base a) e :: record_ids (base (a ++ [e])) c.
Proof. cbn [record_ids]. do 2 f_equal. unfold base. rewrite total_app, total_cons. cbn. lia. Qed.

Lemma place_loop ds E : forall c a d y m,
  same_shape d (doc_of ds E) -> ds = a ++ c ->
  fold_left place_record (enum_from (length a) (record_ids (base a) c)) (d, y, m) =
  (apply_geo (place_log (length a) (base a) (grid_ys (length a) y m c) c) d,
   fst (grid_end (length a) y m c), snd (grid_end (length a) y m c)).
Proof.
  induction c as [|e c IH]; intros a d y m H Hd; [reflexivity|].
  rewrite record_ids_cons. cbn [enum_from fold_left].
  rewrite (place_record_eq ds E d a e c y m H Hd).
  cbn [grid_ys grid_end]. destruct (advance (length a) y m) as [y1 m1].
  cbn [grid_log]. rewrite apply_geo_app.
  assert (L : S (length a) = length (a ++ [e])) by (rewrite app_length; cbn; lia).
  assert (B : base a + node_count e = base (a ++ [e])).
  { unfold base. rewrite total_app, total_cons. cbn. lia. }
  rewrite L, B. apply IH.
  - eapply same_shape_trans; [apply apply_geo_shape|exact H].
  - rewrite <- app_assoc. exact Hd.
Qed.

Definition full_log (ds : list entity_definition) : list (node_id * geo) :=
  place_log 0 1 (grid_ys 0 (py ORIGIN) F_MIN ds) ds.
Definition view_of (ds : list entity_definition) : rect :=
  let '(y, m) := grid_end 0 (py ORIGIN) F_MIN ds in
  mkRect point_zero
    (mkSize (fadd (fadd (fmul (px ORIGIN) (f32_of_Z 2)) (fmul (f32_of_nat GRID_N_COLUMNS) RECORD_WIDTH))
                  (fmul (f32_of_nat (GRID_N_COLUMNS - 1)) RECORD_SPACE))
            (fadd (fadd y m) (py ORIGIN))).

Theorem place_nodes_eq ds E d : same_shape d (doc_of ds E) ->
  place_nodes d = (apply_geo (full_log ds) d, view_of ds).
Proof.
  intros H. unfold place_nodes. rewrite (sk_body _ _ H).
  change (body_children (doc_of ds E)) with (record_ids (base []) ds). unfold enum.
  change 0 with (length (@nil entity_definition)).
  rewrite (place_loop ds E ds [] d _ _ H eq_refl). cbn [length].
  unfold full_log, view_of. change (base []) with 1.
  now destruct (grid_end 0 (py ORIGIN) F_MIN ds) as [y m].
Qed.

(** *** Lookup in the log *)
Lemma grid_ys_length ds : forall i y m, length (grid_ys i y m ds) = length ds.
Proof.
  induction ds as [|e ds IH]; intros i y m; [reflexivity|]. cbn [grid_ys].
  destruct (advance i y m). cbn. now rewrite IH.
Qed.

(** The keys of the log of one entity. *)
Definition keyed {V} (L : nat -> nat -> f32 -> entity_definition -> list (node_id * V)) : Prop :=
  forall i b y e, map fst (L i b y e) = record_at b e :: seq b (rows e).

Lemma map_add_seq b n : map (fun k => b + k) (seq 0 n) = seq b n.
Proof.
  revert b. induction n as [|n IH]; intros b; [reflexivity|].
  cbn [seq map]. rewrite Nat.add_0_r. f_equal. rewrite <- seq_shift, map_map, <- (IH (S b)).
  apply map_ext. intros k. lia.
Qed.

Lemma keyed_geo : keyed entity_log.
Proof. intros i b y e. unfold entity_log. cbn [map fst]. rewrite map_map. cbn [fst]. now rewrite map_add_seq. Qed.
Lemma keyed_ports : keyed entity_ports.
Proof. intros i b y e. unfold entity_ports. cbn [map fst]. rewrite map_map. cbn [fst]. now rewrite map_add_seq. Qed.

Section Log.
Context {V : Type} (L : nat -> nat -> f32 -> entity_definition -> list (node_id * V)) (HL : keyed L).

Lemma entity_log_ids i b y e j : In j (map fst (L i b y e)) -> b <= j < b + node_count e.
Proof.
  rewrite HL. unfold node_count. cbn [map].
  intros [<-|H]; [unfold record_at; lia|]. apply in_seq in H. unfold rows in H. lia.
Qed.

Lemma entity_log_nodup i b y e : NoDup (map fst (L i b y e)).
Proof.
  rewrite HL. constructor; [|apply seq_NoDup].
  intros H. apply in_seq in H. unfold rows, record_at in *. lia.
Qed.

Lemma grid_log_ids ds : forall i b ys j, In j (map fst (grid_log L i b ys ds)) -> b <= j < b + total_nodes ds.
Proof.
  induction ds as [|e ds IH]; intros i b ys j H; [destruct H|].
  destruct ys as [|y ys]; [destruct H|]. cbn [grid_log] in H. rewrite map_app, in_app_iff in H.
  rewrite total_cons. destruct H as [H|H].
  - apply entity_log_ids in H. lia.
  - apply IH in H. lia.
Qed.

Lemma NoDup_app_intro {A} (l1 l2 : list A) :
  NoDup l1 -> NoDup l2 -> (forall x, In x l1 -> ~ In x l2) -> NoDup (l1 ++ l2).
Proof.
  induction l1 as [|a l1 IH]; intros N1 N2 H; [exact N2|].
  apply NoDup_cons_iff in N1 as [Na N1]. cbn. constructor.
  - rewrite in_app_iff. intros [K|K]; [contradiction|]. now apply (H a); [left|].
  - apply IH; auto. intros x Hx. apply H. now right.
Qed.

Lemma grid_log_nodup ds : forall i b ys, NoDup (map fst (grid_log L i b ys ds)).
Proof.
  induction ds as [|e ds IH]; intros i b ys; [constructor|].
  destruct ys as [|y ys]; [constructor|]. cbn [grid_log]. rewrite map_app.
  apply NoDup_app_intro; [apply entity_log_nodup|apply IH|].
  intros x H1 H2. apply entity_log_ids in H1. apply grid_log_ids in H2. lia.
Qed.

Lemma grid_log_in ds : forall i b ys j g, In (j, g) (grid_log L i b ys ds) <->
  exists a e c y, ds = a ++ e :: c /\ nth_error ys (length a) = Some y /\
    In (j, g) (L (i + length a) (b + total_nodes a) y e).
Proof.
  induction ds as [|e ds IH]; intros i b ys j g.
  - split; [intros []|]. intros (a & e & c & y & Hd & _). destruct a; discriminate.
  - destruct ys as [|y ys].
    + split; [intros []|]. intros (a & e' & c & y & _ & Hy & _). destruct a; discriminate.
    + cbn [grid_log]. rewrite in_app_iff, IH. split.
      * intros [H|(a & e' & c & y' & -> & Hy & H)].
        -- exists [], e, ds, y. split; [reflexivity|]. split; [reflexivity|].
           change (total_nodes []) with 0. cbn [length]. now rewrite !Nat.add_0_r.
        -- exists (e :: a), e', c, y'. repeat split; auto. rewrite total_cons. cbn [length].
           replace (i + S (length a)) with (S i + length a) by lia.
           replace (b + (node_count e + total_nodes a)) with (b + node_count e + total_nodes a) by lia.
           exact H.
      * intros (a & e' & c & y' & Hd & Hy & H). destruct a as [|e0 a].
        -- left. cbn [app length nth_error] in *. injection Hd as -> ->. injection Hy as ->.
           change (total_nodes []) with 0 in H. now rewrite !Nat.add_0_r in H.
        -- right. cbn [app] in Hd. injection Hd as -> ->. exists a, e', c, y'. repeat split; auto.
           rewrite total_cons in H. cbn [length] in H.
           replace (S i + length a) with (i + S (length a)) by lia.
           replace (b + node_count e0 + total_nodes a) with (b + (node_count e0 + total_nodes a)) by lia.
           exact H.
Qed.
End Log.

(** The y coordinate of the table after [a]. *)
Definition y_of (ds : list entity_definition) (i : nat) : f32 := nth i (grid_ys 0 (py ORIGIN) F_MIN ds) F_nan.

Lemma y_of_nth ds a e c : ds = a ++ e :: c ->
  nth_error (grid_ys 0 (py ORIGIN) F_MIN ds) (length a) = Some (y_of ds (length a)).
Proof.
  intros ->. apply nth_error_nth'. rewrite grid_ys_length, app_length. cbn. lia.
Qed.

Lemma full_log_row ds a e c k : ds = a ++ e :: c -> k < rows e ->
  nlookup (base a + k) (full_log ds) = Some (row_geo (length a) (y_of ds (length a)) k).
Proof.
  intros Hd Hk. apply nlookup_in; [apply grid_log_nodup, keyed_geo|]. unfold full_log.
  apply grid_log_in. exists a, e, c, (y_of ds (length a)).
  repeat split; auto; [now apply (y_of_nth ds a e c)|].
  cbn [Nat.add]. right. apply in_map_iff. exists k. split; [reflexivity|]. apply in_seq. lia.
Qed.

Lemma full_log_record ds a e c : ds = a ++ e :: c ->
  nlookup (record_at (base a) e) (full_log ds) = Some (table_geo (length a) (y_of ds (length a)) e).
Proof.
  intros Hd. apply nlookup_in; [apply grid_log_nodup, keyed_geo|]. unfold full_log.
  apply grid_log_in. exists a, e, c, (y_of ds (length a)).
  repeat split; auto; [now apply (y_of_nth ds a e c)|]. now left.
Qed.

Lemma full_log_body ds : nlookup 0 (full_log ds) = None.
Proof.
  apply nlookup_none. intros H. apply grid_log_ids in H; [lia|apply keyed_geo].
Qed.

(** *** The placed document *)
Definition placed (ds : list entity_definition) (E : list edge_data) : document :=
  apply_geo (full_log ds) (doc_of ds E).

Lemma placed_row ds E a e c k n : ds = a ++ e :: c -> k < rows e ->
  get_node (doc_of ds E) (base a + k) = Some n ->
  get_node (placed ds E) (base a + k) =
  Some (set_geometry (mkPoint (table_x (length a)) (row_y (y_of ds (length a)) k))
                     (mkSize RECORD_WIDTH LINE_HEIGHT) n).
Proof.
  intros Hd Hk En. unfold placed. rewrite get_apply_geo by apply grid_log_nodup, keyed_geo.
  rewrite (full_log_row ds a e c k Hd Hk). unfold row_geo. now rewrite En.
Qed.

Lemma placed_record ds E a e c : ds = a ++ e :: c ->
  get_node (placed ds E) (record_at (base a) e) =
  Some (set_geometry (mkPoint (table_x (length a)) (y_of ds (length a)))
                     (mkSize RECORD_WIDTH (table_h (rows e))) (record_node (base a) e)).
Proof.
  intros Hd. unfold placed. rewrite get_apply_geo by apply grid_log_nodup, keyed_geo.
  rewrite (full_log_record ds a e c Hd). unfold table_geo. now rewrite (get_record ds E a e c Hd).
Qed.

Lemma placed_body ds E : get_node (placed ds E) 0 = get_node (doc_of ds E) 0.
Proof.
  unfold placed. rewrite get_apply_geo by apply grid_log_nodup, keyed_geo. now rewrite full_log_body.
Qed.

(** ** place_terminal_ports *)
Definition skg (n : node_data) := (n_kind n, n_children n, n_origin n, n_size n).
Definition sg (d : document) (i : node_id) := option_map skg (get_node d i).
Definition same_geo (d d' : document) : Prop := forall i, sg d i = sg d' i.

Lemma same_geo_trans a b c : same_geo a b -> same_geo b c -> same_geo a c.
Proof. intros H1 H2 i. now rewrite H1. Qed.

Lemma same_geo_shape d d' : same_geo d d' -> same_shape d d'.
Proof.
  intros H i. specialize (H i). unfold sg, sk in *.
  destruct (get_node d i), (get_node d' i); try discriminate; [|reflexivity].
  unfold skg, skel in *. cbn [option_map] in *. congruence.
Qed.

Lemma sg_update d i f j :
  (forall n, skg (f n) = skg n) -> sg (update_node d i f) j = sg d j.
Proof.
  intros H. unfold sg, get_node, update_node. cbn [d_nodes].
  destruct (Nat.eq_dec i j) as [->|N].
  - rewrite nth_update_same. destruct (nth_error (d_nodes d) j); cbn; [now rewrite H|reflexivity].
  - now rewrite nth_update_other.
Qed.

Fixpoint number_ports (nid : node_id) (k : nat) (ps : list port_spec) : list terminal_port :=
  match ps with
  | [] => []
  | (x, y, o) :: ps' => mkPort (nid, k) (mkPoint x y) o :: number_ports nid (S k) ps'
  end.

Lemma add_ports_eq nid ps : forall n,
  add_ports nid ps n =
  mkNode (n_origin n) (n_size n) (n_ports n ++ number_ports nid (length (n_ports n)) ps)
         (n_kind n) (n_children n).
Proof.
  induction ps as [|[[x y] o] ps IH]; intros n.
  - cbn. rewrite app_nil_r. now destruct n.
  - cbn [add_ports fold_left]. fold (add_ports nid ps (add_terminal_port n nid (mkPoint x y) o)).
    rewrite IH. cbn [add_terminal_port n_origin n_size n_ports n_kind n_children].
    rewrite app_length, <- app_assoc. cbn [length app number_ports].
    now rewrite Nat.add_1_r.
Qed.

Lemma add_ports_skg nid ps n : skg (add_ports nid ps n) = skg n.
Proof. now rewrite add_ports_eq. Qed.

Definition apply_ports (l : list (node_id * list port_spec)) (d : document) : document :=
  fold_left (fun d p => update_node d (fst p) (add_ports (fst p) (snd p))) l d.

Lemma apply_ports_app l1 l2 d : apply_ports (l1 ++ l2) d = apply_ports l2 (apply_ports l1 d).
Proof. apply fold_left_app. Qed.

Lemma apply_ports_geo l : forall d, same_geo (apply_ports l d) d.
Proof.
  induction l as [|p l IH]; intros d i; [reflexivity|].
  cbn [apply_ports fold_left]. fold (apply_ports l). rewrite IH. apply sg_update, add_ports_skg.
Qed.

Lemma apply_ports_edges l : forall d, d_edges (apply_ports l d) = d_edges d.
Proof. induction l as [|p l IH]; intros d; [reflexivity|]. cbn [apply_ports fold_left]. fold (apply_ports l). now rewrite IH. Qed.

Lemma get_apply_ports l : forall d i, NoDup (map fst l) ->
  get_node (apply_ports l d) i =
  match nlookup i l with
  | Some ps => option_map (add_ports i ps) (get_node d i)
  | None => get_node d i
  end.
Proof.
  induction l as [|[k ps] l IH]; intros d i N; [reflexivity|].
  cbn [map fst] in N. apply NoDup_cons_iff in N as [Nk N].
  cbn [apply_ports fold_left]. fold (apply_ports l). rewrite IH by trivial.
  unfold nlookup in *. cbn [assoc fst snd].
  unfold get_node, update_node. cbn [d_nodes].
  destruct (Nat.eqb_spec i k) as [->|Hn].
  - fold (nlookup k l). rewrite nlookup_none by trivial. now rewrite nth_update_same.
  - destruct (assoc Nat.eqb i l) as [ps'|]; now rewrite nth_update_other by congruence.
Qed.

Lemma sg_some d i k c o s : sg d i = Some (k, c, o, s) ->
  exists n, get_node d i = Some n /\ n_kind n = k /\ n_children n = c /\ n_origin n = o /\ n_size n = s.
Proof.
  unfold sg. destruct (get_node d i) as [n|]; cbn; [|discriminate].
  intros [= <- <- <- <-]. eauto 6.
Qed.

Lemma sg_row ds E d a e c k : same_geo d (placed ds E) -> ds = a ++ e :: c -> k < rows e ->
  exists n, get_node d (base a + k) = Some n /\
    node_rect n = Some (geo_rect (row_geo (length a) (y_of ds (length a)) k)).
Proof.
  intros H Hd Hk. specialize (H (base a + k)).
  assert (S0 : exists f, sk (doc_of ds E) (base a + k) = Some (KField f, []))
    by (apply (sk_row ds E _ a e c k); auto; now intros i).
  destruct S0 as (f & S0). apply sk_some in S0 as (n0 & E0 & _ & _).
  unfold sg at 2 in H. rewrite (placed_row ds E a e c k n0 Hd Hk E0) in H.
  apply sg_some in H as (n & En & _ & _ & Ho & Hs). exists n. split; [exact En|].
  unfold node_rect. now rewrite Ho, Hs.
Qed.

Lemma sg_record ds E d a e c : same_geo d (placed ds E) -> ds = a ++ e :: c ->
  exists n, get_node d (record_at (base a) e) = Some n /\ n_children n = seq (base a) (rows e) /\
    node_rect n = Some (geo_rect (table_geo (length a) (y_of ds (length a)) e)).
Proof.
  intros H Hd. specialize (H (record_at (base a) e)).
  unfold sg at 2 in H. rewrite (placed_record ds E a e c Hd) in H.
  apply sg_some in H as (n & En & _ & Hc & Ho & Hs). exists n. split; [exact En|].
  split; [exact Hc|]. unfold node_rect. now rewrite Ho, Hs.
Qed.

Lemma port_fields i y b count : forall l d,
  (forall k, In k l -> exists n, get_node d (b + k) = Some n /\ node_rect n = Some (geo_rect (row_geo i y k))) ->
  fold_left (port_field count) (map (fun k => (k, b + k)) l) d =
  apply_ports (map (fun k => (b + k, field_ports count k (geo_rect (row_geo i y k)))) l) d.
Proof.
  induction l as [|k l IH]; intros d H; [reflexivity|].
  cbn [map fold_left apply_ports]. fold (apply_ports (map (fun k => (b + k, field_ports count k (geo_rect (row_geo i y k)))) l)).
  destruct (H k) as (n & En & Hn); [now left|].
  unfold port_field at 2. rewrite En, Hn. cbn [fst snd].
  apply IH. intros k' Hk'. destruct (H k') as (n' & En' & Hn'); [now right|].
  assert (G : sg (update_node d (b + k) (add_ports (b + k) (field_ports count k (geo_rect (row_geo i y k))))) (b + k') = sg d (b + k'))
    by (apply sg_update, add_ports_skg).
  unfold sg in G at 2. rewrite En' in G. cbn [option_map] in G.
  unfold skg in G. apply sg_some in G as (n2 & E2 & _ & _ & Ho & Hs).
  exists n2. split; [exact E2|]. unfold node_rect. rewrite Ho, Hs. exact Hn'.
Qed.

Lemma port_record_eq ds E d a e c :
  same_geo d (placed ds E) -> ds = a ++ e :: c ->
  port_record d (record_at (base a) e) =
  apply_ports (entity_ports (length a) (base a) (y_of ds (length a)) e) d.
Proof.
  intros H Hd. destruct (sg_record ds E d a e c H Hd) as (n & En & Cn & Rn).
  unfold port_record. rewrite En, Rn, Cn, seq_length. unfold enum. rewrite enum_seq.
  change (fun k => (0 + k, base a + k)) with (fun k => (k, base a + k)).
  rewrite (port_fields (length a) (y_of ds (length a))); [reflexivity|].
  intros k Hk. apply in_seq in Hk. apply (sg_row ds E _ a e c); auto; [|lia].
  eapply same_geo_trans; [|exact H]. intros j. apply sg_update, add_ports_skg.
Qed.

Lemma skipn_nth {A} (d : A) l : forall i, i < length l -> skipn i l = nth i l d :: skipn (S i) l.
Proof.
  induction l as [|x l IH]; intros i H; [cbn in H; lia|].
  destruct i as [|i]; [reflexivity|]. cbn [skipn nth]. apply IH. cbn in H. lia.
Qed.

Lemma port_loop ds E : forall c a d,
  same_geo d (placed ds E) -> ds = a ++ c ->
  fold_left port_record (record_ids (base a) c) d =
  apply_ports (grid_log entity_ports (length a) (base a)
                 (skipn (length a) (grid_ys 0 (py ORIGIN) F_MIN ds)) c) d.
Proof.
  induction c as [|e c IH]; intros a d H Hd; [reflexivity|].
  rewrite record_ids_cons. cbn [fold_left].
  rewrite (port_record_eq ds E d a e c H Hd).
  rewrite (skipn_nth F_nan) by (rewrite grid_ys_length, Hd, app_length; cbn; lia).
  cbn [grid_log]. rewrite apply_ports_app. fold (y_of ds (length a)).
  assert (L : S (length a) = length (a ++ [e])) by (rewrite app_length; cbn; lia).
  assert (B : base a + node_count e = base (a ++ [e])).
  { unfold base. rewrite total_app, total_cons. cbn. lia. }
  rewrite L, B. apply IH.
  - eapply same_geo_trans; [apply apply_ports_geo|exact H].
  - rewrite <- app_assoc. exact Hd.
Qed.

Definition port_log (ds : list entity_definition) : list (node_id * list port_spec) :=
  grid_log entity_ports 0 1 (grid_ys 0 (py ORIGIN) F_MIN ds) ds.

Theorem place_terminal_ports_eq ds E d : same_geo d (placed ds E) ->
  place_terminal_ports d = apply_ports (port_log ds) d.
Proof.
  intros H. unfold place_terminal_ports. rewrite (sk_body d (doc_of ds E)).
  - apply (port_loop ds E ds [] d H eq_refl).
  - eapply same_shape_trans; [apply same_geo_shape, H|]. apply apply_geo_shape.
Qed.

Lemma port_log_row ds a e c k : ds = a ++ e :: c -> k < rows e ->
  nlookup (base a + k) (port_log ds) =
  Some (field_ports (rows e) k (geo_rect (row_geo (length a) (y_of ds (length a)) k))).
Proof.
  intros Hd Hk. apply nlookup_in; [apply grid_log_nodup, keyed_ports|]. unfold port_log.
  apply grid_log_in. exists a, e, c, (y_of ds (length a)).
  repeat split; auto; [now apply (y_of_nth ds a e c)|].
  cbn [Nat.add]. right. apply in_map_iff. exists k. split; [reflexivity|]. apply in_seq. lia.
Qed.

Lemma port_log_record ds a e c : ds = a ++ e :: c ->
  nlookup (record_at (base a) e) (port_log ds) =
  Some (four_ports (geo_rect (table_geo (length a) (y_of ds (length a)) e))).
Proof.
  intros Hd. apply nlookup_in; [apply grid_log_nodup, keyed_ports|]. unfold port_log.
  apply grid_log_in. exists a, e, c, (y_of ds (length a)).
  repeat split; auto; [now apply (y_of_nth ds a e c)|]. now left.
Qed.

Lemma port_log_body ds : nlookup 0 (port_log ds) = None.
Proof.
  apply nlookup_none. intros H. apply grid_log_ids in H; [lia|apply keyed_ports].
Qed.

(** *** The document with ports *)
Definition ported (ds : list entity_definition) (E : list edge_data) : document :=
  apply_ports (port_log ds) (placed ds E).

Lemma layout_eq ds E : place_terminal_ports (fst (place_nodes (doc_of ds E))) = ported ds E.
Proof.
  rewrite (place_nodes_eq ds E) by (now intros i). cbn [fst]. fold (placed ds E).
  now apply (place_terminal_ports_eq ds E).
Qed.

Lemma ported_row ds E a e c k n : ds = a ++ e :: c -> k < rows e ->
  get_node (doc_of ds E) (base a + k) = Some n ->
  let g := row_geo (length a) (y_of ds (length a)) k in
  get_node (ported ds E) (base a + k) =
  Some (mkNode (Some (fst g)) (Some (snd g))
               (n_ports n ++ number_ports (base a + k) (length (n_ports n)) (field_ports (rows e) k (geo_rect g)))
               (n_kind n) (n_children n)).
Proof.
  intros Hd Hk En g. unfold ported. rewrite get_apply_ports by apply grid_log_nodup, keyed_ports.
  rewrite (port_log_row ds a e c k Hd Hk), (placed_row ds E a e c k n Hd Hk En).
  cbn [option_map]. now rewrite add_ports_eq.
Qed.

Lemma ported_record ds E a e c : ds = a ++ e :: c ->
  let g := table_geo (length a) (y_of ds (length a)) e in
  get_node (ported ds E) (record_at (base a) e) =
  Some (mkNode (Some (fst g)) (Some (snd g))
               (number_ports (record_at (base a) e) 0 (four_ports (geo_rect g)))
               (KRecord table_shape) (seq (base a) (rows e))).
Proof.
  intros Hd g. unfold ported. rewrite get_apply_ports by apply grid_log_nodup, keyed_ports.
  rewrite (port_log_record ds a e c Hd), (placed_record ds E a e c Hd).
  cbn [option_map]. now rewrite add_ports_eq.
Qed.

Lemma ported_body ds E : get_node (ported ds E) 0 = get_node (doc_of ds E) 0.
Proof.
  unfold ported. rewrite get_apply_ports by apply grid_log_nodup, keyed_ports.
  now rewrite port_log_body, placed_body.
Qed.
