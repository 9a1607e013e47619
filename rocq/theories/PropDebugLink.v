(** * C41, C53: separate debug files *)

From Verif Require Import Base Util UtilProofs Elf Ksym DebugLink DebugLinkSpec Lists.
From Verif Require Nom.
Local Open Scope N_scope.

(** ** Paths *)
Lemma path_eqb_eq : forall p q, path_eqb p q = true <-> p = q.
Proof.
  intros [a cs] [a' cs']. unfold path_eqb. cbn [p_abs p_comps]. rewrite andb_true_iff, Bool.eqb_true_iff.
  destruct (list_eq_dec (list_eq_dec N.eq_dec) cs cs'); split.
  - intros [-> _]. now subst.
  - intros H. injection H as -> _. auto.
  - intros [_ H]. discriminate.
  - intros H. injection H as _ H. contradiction.
Qed.
Lemma beq_neq : forall a b, a <> b -> beq a b = false.
Proof. intros a b H. destruct (beq a b) eqn:E; auto. apply beq_eq in E. contradiction. Qed.
Lemma split_plain : forall l cur, ~ In 47 l -> split_slash l cur = [rev cur ++ l].
Proof.
  induction l as [|c l IH]; intros cur H; cbn [split_slash]; [now rewrite app_nil_r|].
  destruct (N.eqb_spec c 47) as [->|Hc]; [exfalso; apply H; now left|]. rewrite IH by (intros K; apply H; now right).
  cbn [rev]. now rewrite <- app_assoc.
Qed.
Lemma parse_plain : forall name, plain name -> parse_path name = Path false [name].
Proof.
  intros name (Hn & Hs & _). unfold parse_path. rewrite split_plain by auto. cbn [rev app filter].
  destruct name as [|c name]; [congruence|]. assert (Hc : c <> 47) by (intros ->; apply Hs; now left).
  destruct (N.eq_dec c 47) as [|_]; [contradiction|]. rewrite (beq_neq (c :: name) []) by discriminate.
  destruct c as [|p]; [reflexivity|]. do 6 (destruct p as [p|p|]; try reflexivity). now exfalso.
Qed.
Lemma join_rel : forall d cs, (forall c, hd_error cs = Some c -> c <> dot) -> pjoin d (Path false cs) = Path (p_abs d) (p_comps d ++ cs).
Proof.
  intros [a ds] cs Hd. unfold pjoin. cbn [p_abs p_comps]. unfold is_empty. cbn [p_abs p_comps].
  destruct a; cbn [negb andb].
  - f_equal. f_equal. destruct cs as [|c cs]; auto. now rewrite beq_neq by auto.
  - destruct ds as [|x ds]; [reflexivity|]. f_equal. f_equal. destruct cs as [|c cs]; auto. now rewrite beq_neq by auto.
Qed.

(** ** The iterator *)
Inductive runs (it : diter) : nat -> dstate -> list path -> Prop :=
| RunStop : forall st st', step it st = Ok (st', Stop) -> runs it 0 st []
| RunAgain : forall n st st' l, step it st = Ok (st', Again) -> runs it n st' l -> runs it (S n) st l
| RunReport : forall n st st' p l, step it st = Ok (st', Report p) -> runs it n st' l -> runs it (S n) st (p :: l).
Definition others (it : diter) (l : list path) : list path := filter (fun p => negb (is_linker it p)) l.
Lemma runs_next : forall it n st l, runs it n st l -> forall fuel, (n < fuel)%nat ->
  exists o st', next fuel it st = Ok (o, st') /\
    match others it l with
    | [] => o = None
    | p :: l' => o = Some p /\ exists n' l2, runs it n' st' l2 /\ (n' < n)%nat /\ others it l2 = l'
    end.
Proof.
  intros it n st l H. induction H as [st st' H|n st st' l H1 H2 IH|n st st' p l H1 H2 IH]; intros [|fuel] Hf; try lia; cbn [next].
  - rewrite H. cbn [bind]. exists None, st'. split; reflexivity.
  - rewrite H1. cbn [bind]. destruct (IH fuel) as (o & st2 & E & K); [lia|]. exists o, st2. split; auto.
    destruct (others it l) as [|p' l']; auto. destruct K as (K1 & n' & l2 & K2 & K3 & K4). split; auto. exists n', l2. repeat split; auto; lia.
  - rewrite H1. cbn [bind others filter]. fold (others it l). destruct (is_linker it p); cbn [negb].
    + destruct (IH fuel) as (o & st2 & E & K); [lia|]. exists o, st2. split; auto.
      destruct (others it l) as [|p' l']; auto. destruct K as (K1 & n' & l2 & K2 & K3 & K4). split; auto. exists n', l2. repeat split; auto; lia.
    + exists (Some p), st'. split; auto. split; auto. exists n, l. auto.
Qed.
Lemma runs_collect : forall fuel it n st l, runs it n st l -> (n < fuel)%nat -> collect fuel it st = Ok (others it l).
Proof.
  induction fuel as [|fuel IH]; intros it n st l H Hf; [lia|]. cbn [collect].
  destruct (runs_next it n st l H (S fuel) Hf) as (o & st' & E & K). rewrite E. cbn [bind].
  destruct (others it l) as [|p l'].
  - now subst o.
  - destruct K as (-> & n' & l2 & K2 & K3 & K4). rewrite (IH it n' st' l2 K2) by lia. cbn [bind]. now rewrite K4.
Qed.
Lemma runs_first : forall fuel fs it n st l, runs it n st l -> (n < fuel)%nat ->
  first_existing fuel fs it st = Ok (find (fs_exists fs) (others it l)).
Proof.
  induction fuel as [|fuel IH]; intros fs it n st l H Hf; [lia|]. cbn [first_existing].
  destruct (runs_next it n st l H (S fuel) Hf) as (o & st' & E & K). rewrite E. cbn [bind].
  destruct (others it l) as [|p l'].
  - now subst o.
  - destruct K as (-> & n' & l2 & K2 & K3 & K4). cbn [find]. destruct (fs_exists fs p); auto.
    rewrite (IH fs it n' st' l2 K2) by lia. now rewrite K4.
Qed.

(** Directories up to the root *)
Fixpoint ups_n (n : nat) (cs : list (list N)) : list (list (list N)) :=
  match n with O => [cs] | S n => cs :: ups_n n (removelast cs) end.
Definition ups (cs : list (list N)) : list (list (list N)) := ups_n (pred (length cs)) cs.
Lemma ups_n_nth : forall n cs i, (i <= n)%nat -> nth_error (ups_n n cs) i = Some (firstn (length cs - i) cs).
Proof.
  induction n as [|n IH]; intros cs i Hi.
  - assert (i = 0)%nat by lia. subst i. cbn [ups_n nth_error]. rewrite Nat.sub_0_r, firstn_all. reflexivity.
  - destruct i as [|i]; cbn [ups_n nth_error]; [rewrite Nat.sub_0_r, firstn_all; reflexivity|].
    rewrite IH by lia. f_equal. rewrite removelast_firstn_len, firstn_firstn, firstn_length. f_equal. lia.
Qed.
Lemma ups_n_length : forall n cs, length (ups_n n cs) = S n.
Proof. induction n as [|n IH]; intros cs; cbn [ups_n length]; auto. Qed.
Lemma ups_upwards : forall cs, upwards cs (ups cs).
Proof.
  intros cs. unfold upwards, ups. destruct cs as [|c cs]; [reflexivity|]. split.
  - rewrite ups_n_length. cbn [length]. lia.
  - intros i Hi. apply ups_n_nth. cbn [length] in *. lia.
Qed.

Lemma removelast_length : forall A (l : list A), length (removelast l) = pred (length l).
Proof. intros A l. rewrite removelast_firstn_len, firstn_length. lia. Qed.
Lemma dyn_one : forall it i rel fixed n l, nth_error (di_dirs it) i = Some fixed -> runs it n (SDynamicDirs (S i) rel rel) l ->
  forall k cs, k = pred (length cs) ->
    runs it (S k + n) (SDynamicDirs i rel (Path false cs)) (map (fun u => pjoin (pjoin fixed (Path false u)) (di_linkee it)) (ups_n k cs) ++ l).
Proof.
  intros it i rel fixed n l Hi Hr. induction k as [|k IH]; intros cs Hk; cbn [ups_n map app plus].
  - eapply RunReport; [|exact Hr]. cbn [step]. rewrite Hi. destruct cs as [|c [|c' cs]]; cbn [length] in Hk; try lia; reflexivity.
  - eapply RunReport; [|apply (IH (removelast cs)); rewrite removelast_length; lia]. cbn [step]. rewrite Hi.
    destruct cs as [|c [|c' cs]]; cbn [length] in Hk; try lia. reflexivity.
Qed.
Lemma dyn_all : forall it rel k i, (i + k = length (di_dirs it))%nat ->
  exists n, (n <= k * S (length rel))%nat /\ runs it n (SDynamicDirs i (Path false rel) (Path false rel))
    (flat_map (fun d => map (fun u => pjoin (pjoin d (Path false u)) (di_linkee it)) (ups rel)) (skipn i (di_dirs it))).
Proof.
  intros it rel. induction k as [|k IH]; intros i Hi.
  - exists 0%nat. split; [lia|]. rewrite skipn_all2 by lia. cbn [flat_map]. eapply RunStop. cbn [step].
    rewrite (proj2 (nth_error_None _ _)) by lia. reflexivity.
  - destruct (nth_error_lt_some _ (di_dirs it) i) as [d Hd]; [lia|]. destruct (IH (S i)) as (n & Hn & Hr); [lia|].
    exists (S (pred (length rel)) + n)%nat. split; [destruct (length rel); cbn [pred]; lia|].
    assert (E : skipn i (di_dirs it) = d :: skipn (S i) (di_dirs it)).
    { clear - Hd. revert i Hd. induction (di_dirs it) as [|x l IH]; intros [|i] Hd; try discriminate.
      - injection Hd as ->. reflexivity.
      - cbn [skipn]. now apply IH. }
    rewrite E. cbn [flat_map]. apply dyn_one; auto.
Qed.
Lemma fixed_all : forall it n l, (forall i, i = length (di_dirs it) -> runs it n (SFixedDir i) l) ->
  forall k i, (i + k = length (di_dirs it))%nat -> runs it (k + n) (SFixedDir i) (map (fun d => pjoin d (di_linkee it)) (skipn i (di_dirs it)) ++ l).
Proof.
  intros it n l Hl. induction k as [|k IH]; intros i Hi.
  - rewrite skipn_all2 by lia. cbn [map app]. apply Hl. lia.
  - destruct (nth_error_lt_some _ (di_dirs it) i) as [d Hd]; [lia|].
    assert (E : skipn i (di_dirs it) = d :: skipn (S i) (di_dirs it)).
    { clear - Hd. revert i Hd. induction (di_dirs it) as [|x l IH]; intros [|i] Hd; try discriminate.
      - injection Hd as ->. reflexivity.
      - cbn [skipn]. now apply IH. }
    rewrite E. cbn [map app plus]. eapply RunReport; [|apply IH; lia]. cbn [step]. now rewrite Hd.
Qed.
Definition id_paths (id : option (list N)) : list path :=
  match id with
  | Some id => if nlen id <? 8 then [] else match build_id_path id with Ok p => [p] | _ => [] end
  | None => []
  end.
Definition rel_of (linkee : path) : list (list N) := removelast (if p_abs linkee then p_comps linkee else tl (p_comps linkee)).
Definition all_paths (it : diter) : list path :=
  id_paths (di_build_id it) ++ map (fun d => pjoin d (di_linkee it)) (di_dirs it) ++
  match di_linker it with
  | None => []
  | Some l =>
      let s := set_file_name l (di_linkee it) in
      s :: flat_map (fun d => map (fun u => pjoin (pjoin d (Path false u)) (di_linkee it)) (ups (rel_of s))) (di_dirs it)
  end.
Lemma join_length : forall p q, (length (p_comps (pjoin p q)) <= length (p_comps p) + length (p_comps q))%nat.
Proof.
  intros p q. unfold pjoin. destruct (p_abs q); [lia|]. destruct (is_empty p); [lia|]. cbn [p_comps]. rewrite app_length.
  destruct (p_comps q) as [|c cs]; [lia|]. destruct (beq c dot); cbn [length]; lia.
Qed.
Lemma all_runs : forall it, exists n, (n <= steps it)%nat /\ runs it n SBuildId (all_paths it).
Proof.
  intros it.
  assert (Hlast : exists n, (n <= 2 + length (di_dirs it) * (1 + (length (p_comps (di_linkee it)) + match di_linker it with Some l => length (p_comps l) | None => 0 end)))%nat /\
    runs it n (SFixedDir (length (di_dirs it))) (match di_linker it with
      | None => []
      | Some l =>
          let s := set_file_name l (di_linkee it) in
          s :: flat_map (fun d => map (fun u => pjoin (pjoin d (Path false u)) (di_linkee it)) (ups (rel_of s))) (di_dirs it)
      end)).
  { assert (En : nth_error (di_dirs it) (length (di_dirs it)) = None) by (apply nth_error_None; lia).
    destruct (di_linker it) as [l|] eqn:El.
    - destruct (dyn_all it (rel_of (set_file_name l (di_linkee it))) (length (di_dirs it)) 0) as (n & Hn & Hr); [lia|].
      exists (S (S n)). split.
      + assert (Hlen : (length (rel_of (set_file_name l (di_linkee it))) <= length (p_comps l) + length (p_comps (di_linkee it)))%nat).
        { unfold rel_of. rewrite removelast_length. unfold set_file_name.
          set (p := if has_file_name l then Path (p_abs l) (removelast (p_comps l)) else l).
          pose proof (join_length p (di_linkee it)).
          assert (length (p_comps p) <= length (p_comps l))%nat.
          { subst p. destruct (has_file_name l); auto. cbn [p_comps]. rewrite removelast_length. lia. }
          destruct (p_abs (pjoin p (di_linkee it))); [lia|]. destruct (p_comps (pjoin p (di_linkee it))); cbn [tl length] in *; lia. }
        assert (length (di_dirs it) * S (length (rel_of (set_file_name l (di_linkee it)))) <=
                length (di_dirs it) * (1 + (length (p_comps (di_linkee it)) + length (p_comps l))))%nat by (apply Nat.mul_le_mono_l; lia).
        lia.
      + eapply RunAgain; [cbn [step]; rewrite En, El; reflexivity|]. cbn [skipn] in Hr. eapply RunReport; [reflexivity|exact Hr].
    - exists 0%nat. split; [lia|]. eapply RunStop. cbn [step]. now rewrite En, El. }
  destruct Hlast as (n & Hn & Hr).
  pose proof (fixed_all it n _ (fun i Ei => eq_rect_r (fun i => runs it n (SFixedDir i) _) Hr Ei) (length (di_dirs it)) 0 ltac:(lia)) as Hf.
  cbn [skipn] in Hf. exists (S (length (di_dirs it) + n)). split; [unfold steps; lia|].
  unfold all_paths, id_paths. destruct (di_build_id it) as [id|] eqn:Eid.
  - destruct (nlen id <? 8) eqn:E8.
    + eapply RunAgain; [cbn [step]; rewrite Eid, E8; reflexivity|exact Hf].
    + destruct id as [|b0 id]; [discriminate|]. eapply RunReport; [cbn [step]; rewrite Eid, E8; reflexivity|exact Hf].
  - eapply RunAgain; [cbn [step]; rewrite Eid; reflexivity|exact Hf].
Qed.

(** ** C41 *)

(** There are finitely many candidates, and the file that has the link is none
    of them. *)
Theorem C41_finite : forall it, exists l, candidates it = Ok l /\ forall p, di_linker it = Some p -> ~ In p l.
Proof.
  intros it. destruct (all_runs it) as (n & Hn & Hr). exists (others it (all_paths it)). split.
  - apply (runs_collect _ it n); auto. lia.
  - intros p Hp Hin. apply filter_In in Hin. destruct Hin as [_ Hin]. unfold is_linker in Hin. rewrite Hp in Hin.
    rewrite (proj2 (path_eqb_eq p p) eq_refl) in Hin. discriminate.
Qed.
Print Assumptions C41_finite.

Lemma digit_ok : forall d, d < 16 -> digit_is (hex_char d) d.
Proof. intros d H. unfold hex_char, digit_is. destruct (N.ltb_spec d 10); [left; lia|right; lia]. Qed.
Lemma hex_ok : forall id, Forall (fun b => b < 256) id -> hex_name id (List.concat (map hex_byte id)).
Proof.
  intros id H. induction H as [|b id Hb H IH]; [constructor|]. cbn [map List.concat]. unfold hex_byte at 1. cbn [app]. constructor; auto.
  - apply digit_ok. apply N.div_lt_upper_bound; lia.
  - apply digit_ok. apply N.mod_lt. lia.
Qed.
Lemma id_file : forall id p, Forall (fun b => b < 256) id -> build_id_path id = Ok p -> build_id_file id p.
Proof.
  intros [|b rest] p Hb H; [discriminate|]. inversion Hb; subst. unfold build_id_path in H.
  exists b, rest, (hex_byte b), (List.concat (map hex_byte rest)). split; auto.
  split; [apply (hex_ok [b]); auto|]. split; [now apply hex_ok|].
  apply (f_equal (fun r => match r with Ok x => x | _ => p end)) in H. cbv beta iota in H. rewrite <- H. clear H.
  rewrite !join_rel; [reflexivity|..]; cbn [hd_error]; intros c Hc; injection Hc as <-; intros E; apply (f_equal (@length N)) in E;
    [discriminate|]. rewrite app_length in E. cbn in E. lia.
Qed.
Lemma others_without : forall it l, without (di_linker it) l (others it l).
Proof.
  intros it. induction l as [|p l IH]; [constructor|]. unfold others. cbn [filter]. fold (others it l).
  destruct (is_linker it p) eqn:Ep; cbn [negb]; unfold is_linker in Ep; destruct (di_linker it) as [x|]; try discriminate.
  - apply path_eqb_eq in Ep. subst x. now apply WithoutSkip.
  - apply WithoutKeep; auto. intros H. injection H as ->. rewrite (proj2 (path_eqb_eq p p) eq_refl) in Ep. discriminate.
  - apply WithoutKeep; auto. discriminate.
Qed.
Lemma removelast_snoc : forall A (l : list A) x, removelast (l ++ [x]) = l.
Proof. intros A l x. rewrite removelast_app by discriminate. cbn [removelast]. apply app_nil_r. Qed.
Lemma plain_dot : forall c, plain c -> c <> dot.
Proof. intros c (_ & _ & H & _). exact H. Qed.
Lemma Forall2_map_r : forall A B (f : A -> B) (R : A -> B -> Prop) l, (forall a, In a l -> R a (f a)) -> Forall2 R l (map f l).
Proof. intros A B f R. induction l as [|a l IH]; intros H; constructor; [apply H; now left|]. apply IH. intros b Hb. apply H. now right. Qed.
Lemma in_ups_n : forall n cs u, In u (ups_n n cs) -> exists k, u = firstn k cs.
Proof.
  induction n as [|n IH]; intros cs u Hu; cbn [ups_n] in Hu.
  - destruct Hu as [<-|[]]. exists (length cs). now rewrite firstn_all.
  - destruct Hu as [<-|Hu]; [exists (length cs); now rewrite firstn_all|]. destruct (IH _ _ Hu) as [k ->].
    rewrite removelast_firstn_len, firstn_firstn. eauto.
Qed.
Lemma flat_concat : forall A B (f : A -> list B) l, flat_map f l = List.concat (map f l).
Proof. intros A B f l. induction l as [|a l IH]; [reflexivity|]. cbn [flat_map map List.concat]. now rewrite IH. Qed.

Definition linker_of (linker : option (list (list N) * list N)) : option path :=
  match linker with Some (dir, file) => Some (Path true (dir ++ [file])) | None => None end.
(** The candidates are the documented ones, in that order. *)
Theorem C41_order : forall dirs linker name id,
  plain name ->
  (forall dir file, linker = Some (dir, file) -> Forall plain dir /\ plain file) ->
  (forall i, id = Some i -> Forall (fun b => b < 256) i) ->
  exists l l', documented dirs linker name id l /\ without (linker_of linker) l l' /\
    candidates (DIter dirs (linker_of linker) (parse_path name) id) = Ok l'.
Proof.
  intros dirs linker name id Hn Hl Hid. set (it := DIter dirs (linker_of linker) (parse_path name) id).
  exists (all_paths it), (others it (all_paths it)). split; [|split].
  - exists (id_paths id), (map (fun d => pjoin d (parse_path name)) dirs),
      (match linker_of linker with
       | None => []
       | Some l => let s := set_file_name l (parse_path name) in
           s :: flat_map (fun d => map (fun u => pjoin (pjoin d (Path false u)) (parse_path name)) (ups (rel_of s))) dirs
       end).
    rewrite (parse_plain name Hn) in *. assert (Hd : forall c, hd_error [name] = Some c -> c <> dot).
    { intros c Hc. injection Hc as <-. now apply plain_dot. }
    split; [unfold all_paths, it; cbn [di_build_id di_dirs di_linkee di_linker]; now rewrite (parse_plain name Hn)|]. split; [|split].
    + unfold id_paths. destruct id as [i|]; auto. destruct (nlen i <? 8) eqn:E; auto. destruct (build_id_path i) as [p| | |] eqn:Ep;
        try (destruct i; discriminate). exists p. split; auto. apply id_file; auto.
    + apply Forall2_map_r. intros d _. unfold below. now rewrite join_rel.
    + destruct linker as [[dir file]|]; cbn [linker_of]; auto. destruct (Hl dir file eq_refl) as [Hdir Hfile].
      assert (Es : set_file_name (Path true (dir ++ [file])) (Path false [name]) = Path true (dir ++ [name])).
      { unfold set_file_name, has_file_name. cbn [p_comps p_abs].
        assert (El : last (dir ++ [file]) [] = file) by apply last_last. destruct (dir ++ [file]) as [|x l] eqn:E; [destruct dir; discriminate|].
        rewrite El. destruct Hfile as (_ & _ & F1 & F2). rewrite (beq_neq file dots), (beq_neq file dot) by auto. cbn [orb negb].
        rewrite <- E, removelast_snoc. now rewrite join_rel. }
      rewrite Es. cbv zeta. unfold rel_of. cbn [p_abs p_comps]. rewrite removelast_snoc.
      exists (ups dir), (map (fun d => map (fun u => pjoin (pjoin d (Path false u)) (Path false [name])) (ups dir)) dirs).
      split; [apply ups_upwards|]. split; [|f_equal; apply flat_concat].
      apply Forall2_map_r. intros d _. apply Forall2_map_r. intros u Hu. apply in_ups_n in Hu. destruct Hu as [k ->].
      rewrite join_rel by auto. rewrite join_rel; [cbn [p_abs p_comps]; unfold below; now rewrite app_assoc|].
      intros c Hc. destruct dir as [|x dir]; [destruct k; discriminate|]. destruct k; [discriminate|]. injection Hc as <-.
      inversion Hdir; subst. now apply plain_dot.
  - apply (others_without it).
  - destruct (all_runs it) as (n & Hk & Hr). apply (runs_collect _ it n); auto. lia.
Qed.
Print Assumptions C41_order.

(** The first candidate that exists is used. *)
Theorem C41_first : forall fs file linker dirs,
  exists l, candidates (debug_iter fs file linker dirs) = Ok l /\
    ((find_debug_file fs file linker dirs = Ok None /\ Forall (fun p => fs_exists fs p = false) l) \/
     exists pre p post, l = pre ++ p :: post /\ find_debug_file fs file linker dirs = Ok (Some p) /\
       fs_exists fs p = true /\ Forall (fun p => fs_exists fs p = false) pre).
Proof.
  intros fs file linker dirs. set (it := debug_iter fs file linker dirs). destruct (all_runs it) as (n & Hk & Hr).
  exists (others it (all_paths it)). split; [apply (runs_collect _ it n); auto; lia|].
  unfold find_debug_file. fold it. rewrite (runs_first _ fs it n _ _ Hr) by lia. clear.
  induction (others it (all_paths it)) as [|p l IH]; [left; split; auto|]. cbn [find]. destruct (fs_exists fs p) eqn:E.
  - right. exists [], p, l. auto.
  - destruct IH as [[IH1 IH2]|(pre & q & post & -> & IH1 & IH2 & IH3)].
    + left. split; auto.
    + right. exists (p :: pre), q, post. repeat split; auto.
Qed.
(** Only a file with the right checksum is used; another one is an error. *)
Theorem C41_checksum : forall x m fs crc b module dirs file checksum,
  read_debug_link x m b = Ok (Some (file, checksum)) ->
  match find_debug_file fs (parse_path file) module dirs with
  | Ok (Some p) =>
      match fs_open fs p with
      | Ok data => try_deref_debug_link x m fs crc b module dirs =
                     if crc data =? checksum then Ok (Some (p, data)) else Err EInvalidData
      | Err e => try_deref_debug_link x m fs crc b module dirs = Err e
      | _ => True
      end
  | Ok None => try_deref_debug_link x m fs crc b module dirs = Ok None
  | _ => False
  end.
Proof.
  intros x m fs crc b module dirs file checksum H. unfold try_deref_debug_link. rewrite H. cbn [bind].
  destruct (C41_first fs (parse_path file) module dirs) as (l & _ & [[-> _]|(pre & p & post & _ & -> & _)]); cbn [bind]; auto.
  destruct (fs_open fs p); cbn [bind]; auto.
Qed.
Theorem C41_used : forall x m fs crc b module dirs p data,
  try_deref_debug_link x m fs crc b module dirs = Ok (Some (p, data)) ->
  exists file l, read_debug_link x m b = Ok (Some (file, crc data)) /\
    candidates (debug_iter fs (parse_path file) module dirs) = Ok l /\ In p l /\ fs_exists fs p = true /\ fs_open fs p = Ok data /\
    forall q, module = Some q -> try_canonicalize fs q <> Some p.
Proof.
  intros x m fs crc b module dirs p data H. unfold try_deref_debug_link in H. ib H link El. destruct link as [[file checksum]|]; [|discriminate].
  destruct (C41_first fs (parse_path file) module dirs) as (l & Hc & [[E _]|(pre & p' & post & -> & E & Ex & _)]); rewrite E in H; cbn [bind] in H; [discriminate|].
  ib H d Ed. destruct (N.eqb_spec (crc d) checksum) as [<-|Hne]; [|discriminate]. injection H as -> ->.
  exists file, (pre ++ p :: post). split; auto. split; auto. split; [apply in_app_iff; right; now left|]. split; auto. split; auto.
  intros q -> Hq. destruct (C41_finite (debug_iter fs (parse_path file) (Some q) dirs)) as (l & E1 & E2). rewrite Hc in E1. injection E1 as <-.
  apply (E2 p); [cbn [debug_iter di_linker]; exact Hq|]. apply in_app_iff. right. now left.
Qed.
Print Assumptions C41_first.
Print Assumptions C41_checksum.
Print Assumptions C41_used.

(** ** C53 *)
Lemma split_zero : forall data a r, split_once (fun b => b =? 0) data = Some (a, r) <-> data = a ++ 0 :: r /\ ~ In 0 a.
Proof.
  induction data as [|c data IH]; intros a r; cbn [split_once]; split.
  - discriminate.
  - intros [H _]. destruct a; discriminate.
  - destruct (N.eqb_spec c 0) as [->|Hc].
    + intros H. injection H as <- <-. split; [reflexivity|intros []].
    + destruct (split_once _ data) as [[a' r']|] eqn:E; [|discriminate]. intros H. injection H as <- <-.
      destruct (proj1 (IH a' r') eq_refl) as [-> Hn]. split; [reflexivity|]. intros [H|H]; auto.
  - intros [E Hn]. destruct a as [|x a]; cbn [app] in E; injection E as -> E.
    + subst data. reflexivity.
    + destruct (N.eqb_spec x 0) as [->|Hx]; [exfalso; apply Hn; now left|].
      rewrite (proj2 (IH a r)); [reflexivity|]. split; auto. intros H. apply Hn. now right.
Qed.

Lemma le4 : forall rest v r, read_u32 rest = Ok (v, r) ->
  exists c0 c1 c2 c3, rest = [c0; c1; c2; c3] ++ r /\ v = c0 + 256 * (c1 + 256 * (c2 + 256 * c3)).
Proof.
  intros rest v r H. unfold read_u32, read_le in H. ib H [d r'] E. injection H as <- <-. apply read_slice_ok in E.
  destruct E as (-> & Hd & _). destruct d as [|c0 [|c1 [|c2 [|c3 [|c4 d]]]]]; unfold nlen in Hd; cbn [length] in Hd; try lia.
  exists c0, c1, c2, c3. split; auto. cbn [le_val]. lia.
Qed.
Lemma parse_cases : forall m data, link_length_ok data ->
  (exists name crc, parse_debug_link m data = Ok (name, crc) /\ link_section data name crc) \/
  (parse_debug_link m data = Err EInvalidData /\ forall name crc, ~ link_section data name crc).
Proof.
  intros m data Hlen. unfold parse_debug_link, read_cstr. destruct (split_once (fun b => b =? 0) data) as [[name rest]|] eqn:Es; cbn [of_option ok_or bind].
  2:{ right. split; auto. intros name crc (Hn & pad & c0 & c1 & c2 & c3 & rest & E & _).
      rewrite (proj2 (split_zero data name _) (conj E Hn)) in Es. discriminate. }
  apply split_zero in Es. destruct Es as [E Hn].
  assert (Hl : nlen data = nlen name + (1 + nlen rest)) by (rewrite E, nlen_app; unfold nlen; cbn [length]; lia).
  replace (nlen data - nlen rest) with (nlen name + 1) by lia. unfold link_length_ok in Hlen.
  destruct (align_up_spec m two64 (nlen name + 1) 2) as (r & Er & Hd & Hge & Hmin); [right; reflexivity|reflexivity|unfold two64 in *; change (2 ^ 2) with 4; lia|].
  change (2 ^ 2) with 4 in *. rewrite Er. cbn [bind]. unfold sub64.
  assert (Hr4 : r < nlen name + 1 + 4).
  { destruct (N.lt_ge_cases r (nlen name + 1 + 4)) as [|Hc]; auto. assert (K : r <= r - 4).
    { apply Hmin; [|lia]. apply N.divide_sub_r; auto. apply N.divide_refl. }
    lia. }
  rewrite usub_small by lia. cbn [bind]. set (k := r - (nlen name + 1)).
  unfold advance. destruct (read_slice k rest) as [[pad rest2]|e| |] eqn:Ea; cbn [bind ok_or].
  2:{ right. split; [unfold read_slice in Ea; destruct (nlen rest <? k); [injection Ea as <-; reflexivity|discriminate]|].
      intros name' crc (Hn' & pad & c0 & c1 & c2 & c3 & rest' & E' & Hp & Hdiv & _).
      pose proof (proj2 (split_zero data name' _) (conj E' Hn')) as S1. rewrite (proj2 (split_zero data name rest) (conj E Hn)) in S1.
      injection S1 as <- ->. unfold read_slice in Ea. match type of Ea with (if ?c then _ else _) = _ => destruct c eqn:Ec end; [|discriminate].
      apply N.ltb_lt in Ec. rewrite nlen_app in Ec. assert (K : r <= nlen name + 1 + nlen pad) by (apply Hmin; auto; lia). subst k. lia. }
  2:{ unfold read_slice in Ea. destruct (nlen rest <? k); discriminate. }
  2:{ unfold read_slice in Ea. destruct (nlen rest <? k); discriminate. }
  apply read_slice_ok in Ea. destruct Ea as (Ea & Hk & _).
  destruct (read_u32 rest2) as [[crc rest3]|e| |] eqn:Eu; cbn [bind ok_or].
  - left. exists name, crc. split; auto. apply le4 in Eu. destruct Eu as (c0 & c1 & c2 & c3 & E2 & Ev).
    split; auto. exists pad, c0, c1, c2, c3, rest3. split; [rewrite E, Ea, E2; reflexivity|]. split; [unfold nlen in Hk; subst k; lia|]. split; auto.
    rewrite Hk. subst k. replace (nlen name + 1 + (r - (nlen name + 1))) with r by lia. exact Hd.
  - right. split; [unfold read_u32, read_le, read_slice in Eu; destruct (nlen rest2 <? 4); [injection Eu as <-; reflexivity|discriminate]|].
    intros name' crc (Hn' & pad' & c0 & c1 & c2 & c3 & rest' & E' & Hp & Hdiv & _).
    pose proof (proj2 (split_zero data name' _) (conj E' Hn')) as S1. rewrite (proj2 (split_zero data name rest) (conj E Hn)) in S1.
    injection S1 as <- S1. assert (Hpad : nlen pad' = k).
    { assert (K : r <= nlen name + 1 + nlen pad') by (apply Hmin; auto; lia).
      destruct Hd as [q ->]. destruct Hdiv as [q' Hq]. unfold nlen in *. subst k. lia. }
    assert (E2 : rest2 = [c0; c1; c2; c3] ++ rest').
    { rewrite S1 in Ea. apply (f_equal (ndrop k)) in Ea. rewrite !ndrop_app_exact in Ea by auto. now symmetry. }
    rewrite E2 in Eu. unfold read_u32, read_le in Eu. rewrite read_slice_app in Eu by reflexivity. discriminate.
  - unfold read_u32, read_le, read_slice in Eu. destruct (nlen rest2 <? 4); discriminate.
  - unfold read_u32, read_le, read_slice in Eu. destruct (nlen rest2 <? 4); discriminate.
Qed.
Lemma section_unique : forall data name crc name' crc', link_section data name crc -> link_section data name' crc' -> name = name' /\ crc = crc'.
Proof.
  intros data name crc name' crc' (Hn & pad & c0 & c1 & c2 & c3 & rest & E & Hp & Hd & ->) (Hn' & pad' & c0' & c1' & c2' & c3' & rest' & E' & Hp' & Hd' & ->).
  pose proof (proj2 (split_zero data name _) (conj E Hn)) as S1. rewrite (proj2 (split_zero data name' _) (conj E' Hn')) in S1.
  injection S1 as -> S1. split; auto.
  assert (length pad = length pad') as El by (destruct Hd as [q Hq], Hd' as [q' Hq']; unfold nlen in *; lia).
  assert (Ep : pad' = pad /\ c0' :: c1' :: c2' :: c3' :: rest' = c0 :: c1 :: c2 :: c3 :: rest).
  { clear - S1 El. revert pad' S1 El. induction pad as [|x pad IH]; intros [|x' pad'] S1 El; try discriminate; auto.
    injection S1 as -> S1. injection El as El. destruct (IH pad' S1 El) as [-> E]. auto. }
  destruct Ep as [_ Ep]. injection Ep as -> -> -> -> ->. reflexivity.
Qed.
(** A debug link section is read to its name and checksum, and data that is
    not one is rejected, in any build. *)
Theorem C53_parsed : forall m data name crc, link_length_ok data ->
  (parse_debug_link m data = Ok (name, crc) <-> link_section data name crc).
Proof.
  intros m data name crc Hl. destruct (parse_cases m data Hl) as [(n' & c' & E & Hs)|[E Hs]]; rewrite E; split.
  - intros H. injection H as <- <-. exact Hs.
  - intros H. destruct (section_unique _ _ _ _ _ Hs H) as [-> ->]. reflexivity.
  - discriminate.
  - intros H. now destruct (Hs name crc).
Qed.
Theorem C53_truncated : forall m data, link_length_ok data -> (forall name crc, ~ link_section data name crc) ->
  parse_debug_link m data = Err EInvalidData.
Proof. intros m data Hl H. destruct (parse_cases m data Hl) as [(n' & c' & E & Hs)|[E Hs]]; auto. now destruct (H n' c'). Qed.
Print Assumptions C53_parsed.
Print Assumptions C53_truncated.

From Verif Require Import Bytes ElfSpec ElfFormat PropBuildId ElfExample.
(** The same for whole files: the section found is the first of its name. *)
Theorem C53_file : forall x m ptr data e, elf_file ptr data e ->
  match section_named e n_debuglink with
  | None => read_debug_link x m (Mem ptr data) = Ok None
  | Some s => sh_type (s_hdr s) <> SHT_NOBITS -> N.land (sh_flags (s_hdr s)) SHF_COMPRESSED = 0 -> link_length_ok (s_data s) ->
      (forall name crc, read_debug_link x m (Mem ptr data) = Ok (Some (name, crc)) <-> link_section (s_data s) name crc) /\
      ((forall name crc, ~ link_section (s_data s) name crc) -> read_debug_link x m (Mem ptr data) = Err EInvalidData)
  end.
Proof.
  intros x m ptr data e Hf. pose proof (find_section_ok ptr data e Hf n_debuglink) as Hs. unfold read_debug_link.
  destruct (section_named e n_debuglink) as [s|]; [|now rewrite Hs]. destruct Hs as (i & -> & Hi). intros Hn Hc Hl.
  rewrite (section_data_ok x m ptr data e Hf i s Hi Hn Hc). split.
  - intros name crc. rewrite <- (C53_parsed m _ name crc Hl). destruct (parse_debug_link m (s_data s)) as [[n c]| | |]; cbn [bind]; split; intros H; try discriminate; injection H as -> ->; reflexivity.
  - intros H. now rewrite (C53_truncated m _ Hl H).
Qed.
Print Assumptions C53_file.

From Coq Require Import String.
Local Close Scope string_scope.
Definition s_ (s : string) : list N := Nom.bs s.
Definition p_ (s : string) : path := parse_path (s_ s).
Definition link_data : list N := s_ "prog.debug" ++ [0; 0; 1; 2; 3; 4].
Example C53_example :
  link_section link_data (s_ "prog.debug") 67305985 /\
  parse_debug_link Checked link_data = Ok (s_ "prog.debug", 67305985) /\
  parse_debug_link Checked (s_ "prog.debug" ++ [0; 0; 1; 2; 3]) = Err EInvalidData /\
  parse_debug_link Checked (s_ "prog.debug") = Err EInvalidData /\
  parse_debug_link Checked (s_ "abc" ++ [0; 9; 0; 0; 0]) = Ok (s_ "abc", 9).
Proof.
  assert (H : parse_debug_link Checked link_data = Ok (s_ "prog.debug", 67305985)) by (vm_compute; reflexivity).
  split; [|vm_compute; auto]. apply (C53_parsed Checked); auto. vm_compute. discriminate.
Qed.
Definition dl_made := make false 3 [] [Input (s_ ".text") 1 4096 0 0 (repeat 144 16); Input n_debuglink 1 0 0 0 link_data].
Example C53_file_example :
  elf_file 4096 (snd dl_made) (fst dl_made) /\ read_debug_link no_ext Checked (Mem 4096 (snd dl_made)) = Ok (Some (s_ "prog.debug", 67305985)).
Proof. split; [apply elf_file_check; vm_compute; reflexivity|vm_compute; reflexivity]. Qed.

(** Not so if the section cannot be read, as when its size is too large: then
    looking for the link panics. *)
Definition patch (data : list N) (off b : N) : list N := ntake off data ++ b :: ndrop (off + 1) data.
Definition dl_broken : list N := patch (snd dl_made) (h_shoff (i_hdr (fst dl_made)) + 2 * 64 + 39) 1.
Theorem C53_unreadable_refuted : exists data,
  find_section (Mem 4096 data) n_debuglink = Ok (Some 2) /\
  (exists e, section_data no_ext Checked (Mem 4096 data) 2 = Err e) /\
  forall fs crc module dirs, try_deref_debug_link no_ext Checked fs crc (Mem 4096 data) module dirs = Panic.
Proof.
  exists dl_broken. assert (E : read_debug_link no_ext Checked (Mem 4096 dl_broken) = Panic) by (vm_compute; reflexivity).
  split; [vm_compute; reflexivity|]. split; [eexists; vm_compute; reflexivity|].
  intros. unfold try_deref_debug_link. now rewrite E.
Qed.
Print Assumptions C53_unreadable_refuted.

Definition dl_dirs : list path := [p_ "/usr/lib/debug"; p_ "/lib/debug"].
Example C41_example :
  candidates (DIter dl_dirs (Some (p_ "/usr/bin/prog")) (p_ "prog.debug") (Some [171; 205; 1; 2; 3; 4; 5; 6])) =
  Ok [p_ "/usr/lib/debug/.build-id/ab/cd010203040506.debug";
      p_ "/usr/lib/debug/prog.debug"; p_ "/lib/debug/prog.debug";
      p_ "/usr/bin/prog.debug";
      p_ "/usr/lib/debug/usr/bin/prog.debug"; p_ "/usr/lib/debug/usr/prog.debug";
      p_ "/lib/debug/usr/bin/prog.debug"; p_ "/lib/debug/usr/prog.debug"] /\
  candidates (DIter dl_dirs (Some (p_ "/usr/lib/debug/prog")) (p_ "prog") None) =
  Ok [p_ "/lib/debug/prog"; p_ "/usr/lib/debug/usr/lib/debug/prog"; p_ "/usr/lib/debug/usr/lib/prog"; p_ "/usr/lib/debug/usr/prog";
      p_ "/lib/debug/usr/lib/debug/prog"; p_ "/lib/debug/usr/lib/prog"; p_ "/lib/debug/usr/prog"].
Proof. vm_compute. auto. Qed.
Definition dl_fs : dfs :=
  DFs (fun p => Canonical p) (fun _ => None) (fun p => path_eqb p (p_ "/lib/debug/prog.debug") || path_eqb p (p_ "/usr/bin/prog.debug")) (fun _ => Ok [1; 2; 3]).
Example C41_find_example :
  find_debug_file dl_fs (p_ "prog.debug") (Some (p_ "/usr/bin/prog")) dl_dirs = Ok (Some (p_ "/lib/debug/prog.debug")) /\
  try_deref_debug_link no_ext Checked dl_fs (fun _ => 67305985) (Mem 4096 (snd dl_made)) (Some (p_ "/usr/bin/prog")) dl_dirs =
    Ok (Some (p_ "/lib/debug/prog.debug", [1; 2; 3])) /\
  try_deref_debug_link no_ext Checked dl_fs (fun _ => 7) (Mem 4096 (snd dl_made)) (Some (p_ "/usr/bin/prog")) dl_dirs = Err EInvalidData.
Proof. vm_compute. auto. Qed.
(** The rejected file shadows later ones: with a stale file in a directory
    searched earlier, the matching one is not looked at and there is an error. *)
Theorem C41_stale_refuted : exists fs crc data b dirs file sum p,
  read_debug_link no_ext Checked b = Ok (Some (file, sum)) /\
  (exists l, candidates (debug_iter fs (parse_path file) None dirs) = Ok l /\ In p l) /\
  fs_exists fs p = true /\ fs_open fs p = Ok data /\ crc data = sum /\
  try_deref_debug_link no_ext Checked fs crc b None dirs = Err EInvalidData.
Proof.
  exists (DFs (fun p => Canonical p) (fun _ => None) (fun _ => true) (fun p => if path_eqb p (p_ "/lib/debug/prog.debug") then Ok [1] else Ok [])),
    (fun d => match d with [] => 0 | _ => 67305985 end), [1], (Mem 4096 (snd dl_made)), dl_dirs, (s_ "prog.debug"), 67305985, (p_ "/lib/debug/prog.debug").
  split; [vm_compute; reflexivity|]. split; [eexists; split; [vm_compute; reflexivity|right; now left]|]. repeat split; vm_compute; reflexivity.
Qed.
(** The linking file itself is only left out if its path is known: without it
    there is nothing to compare to (this is [C41_finite] with no linker). A
    file that does not exist any more may have a relative path, for which the
    first directory is dropped in place of the root. *)
Theorem C41_relative_refuted : exists dirs l,
  candidates (DIter dirs (Some (p_ "a/b/prog")) (p_ "prog.debug") None) = Ok l /\
  In (p_ "/usr/lib/debug/b/prog.debug") l /\ ~ In (p_ "/usr/lib/debug/a/b/prog.debug") l.
Proof.
  exists [p_ "/usr/lib/debug"]. eexists. split; [vm_compute; reflexivity|]. split.
  - vm_compute. auto.
  - intros H. vm_compute in H. repeat (destruct H as [H|H]; [discriminate|]). exact H.
Qed.
Print Assumptions C41_stale_refuted.
Print Assumptions C41_relative_refuted.

(** ** Spelling of paths, and files that are not there *)
Lemma split_app : forall a b cur, split_slash (a ++ 47 :: b) cur = split_slash a cur ++ split_slash b [].
Proof.
  induction a as [|c a IH]; intros b cur; cbn [app split_slash]; [reflexivity|].
  destruct (c =? 47); rewrite IH; reflexivity.
Qed.
Lemma slash_first : forall c l A (x y : A), match c :: l with 47 :: _ => x | _ => y end = if c =? 47 then x else y.
Proof. intros c l A x y. destruct c as [|p]; [reflexivity|]. do 6 (destruct p as [p|p|]; try reflexivity). Qed.
Lemma split_some : forall a cur, exists c cs, split_slash a cur = c :: cs.
Proof. induction a as [|c a IH]; intros cur; cbn [split_slash]; [eauto|]. destruct (c =? 47); eauto. Qed.
Lemma parse_app : forall a b, exists abs cs, forall mid, parse_path (a ++ 47 :: mid ++ b) = Path abs (cs ++ filter kept (split_slash (mid ++ b) [])).
Proof.
  intros [|c a] b.
  - exists true, []. intros mid. reflexivity.
  - destruct (split_some (c :: a) []) as (s & ss & E).
    destruct (c =? 47) eqn:Ec.
    + exists true, (filter kept ss). intros mid. unfold parse_path. rewrite split_app, E. cbn [app]. rewrite (slash_first c (a ++ 47 :: mid ++ b)), Ec.
      now rewrite filter_app.
    + exists false, ((if beq s [] then [] else [s]) ++ filter kept ss). intros mid. unfold parse_path. rewrite split_app, E. cbn [app].
      rewrite (slash_first c (a ++ 47 :: mid ++ b)), Ec. now rewrite filter_app, app_assoc.
Qed.
(** Names are the same with further slashes and dots in them. *)
Theorem C41_spelling : forall dirs linker id dir mid name,
  mid = s_ "/" \/ mid = s_ "./" ->
  candidates (DIter dirs linker (parse_path (dir ++ s_ "/" ++ mid ++ name)) id) =
  candidates (DIter dirs linker (parse_path (dir ++ s_ "/" ++ name)) id).
Proof.
  intros dirs linker id dir mid name Hm. f_equal. f_equal. destruct (parse_app dir name) as (abs & cs & E).
  change (s_ "/") with [47] at 1 2. cbn [app]. rewrite (E mid). change name with ([] ++ name) at 2. rewrite (E []). f_equal. f_equal.
  destruct Hm as [->| ->].
  - change (s_ "/") with [47]. cbn [app split_slash]. rewrite N.eqb_refl. reflexivity.
  - change (s_ "./") with [46; 47]. cbn [app split_slash]. change (46 =? 47) with false. cbn iota. rewrite N.eqb_refl. reflexivity.
Qed.
(** The linking file is the one at the end of links, or the one asked for if it
    does not exist; if its path cannot be resolved, only the directories for
    debug files are looked at. *)
Theorem C41_linking : forall fs file linker dirs,
  candidates (debug_iter fs file (Some linker) dirs) =
  match fs_canonical fs linker with
  | Canonical p => candidates (DIter dirs (Some p) file (fs_build_id fs p))
  | NotThere => candidates (DIter dirs (Some linker) file (fs_build_id fs linker))
  | CanonicalError => candidates (DIter dirs None file None)
  end.
Proof. intros fs file linker dirs. unfold debug_iter, try_canonicalize. destruct (fs_canonical fs linker); reflexivity. Qed.
(** Files in which no sections can be found do without one. *)
Theorem C53_no_sections : forall x m fs crc b module dirs e,
  find_section b n_debuglink = Err e -> try_deref_debug_link x m fs crc b module dirs = Ok None.
Proof. intros x m fs crc b module dirs e H. unfold try_deref_debug_link, read_debug_link. now rewrite H. Qed.
Example C41_spelling_example :
  candidates (DIter dl_dirs None (parse_path (s_ "sub/.//prog.debug")) None) =
  Ok [p_ "/usr/lib/debug/sub/prog.debug"; p_ "/lib/debug/sub/prog.debug"].
Proof. vm_compute. reflexivity. Qed.
Example C53_no_sections_example : exists e, find_section (Mem 4096 []) n_debuglink = Err e.
Proof. eexists. vm_compute. reflexivity. Qed.
Print Assumptions C41_spelling.
Print Assumptions C41_linking.
Print Assumptions C53_no_sections.
