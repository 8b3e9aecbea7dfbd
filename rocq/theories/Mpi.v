(** Processes and their message-passing semantics.

    A rank of the MPI program is a term of [proc].  The semantics covers every
    schedule and every choice of buffered or rendezvous completion of MPI_Send
    and of eager or joint completion of MPI_Bcast.  All receives name their
    source and tag (the C code uses neither MPI_ANY_SOURCE nor MPI_ANY_TAG). *)
From Coq Require Import Arith List Bool Lia FunctionalExtensionality.
From Verif Require Import Base.
Import ListNotations.
Local Open Scope nat_scope.

Section Proc.
Variables (msg event : Type).

Inductive proc (X : Type) : Type :=
| Ret (x : X)
| Send (dst tag : nat) (m : msg) (k : proc X)      (* MPI_Send, standard mode *)
| Recv (src tag : nat) (k : msg -> proc X)         (* MPI_Recv, blocking *)
| Bcast (root : nat) (m : msg) (k : msg -> proc X) (* MPI_Bcast; m is this rank's own buffer *)
| Barrier (k : proc X)                             (* MPI_Barrier *)
| Out (e : event) (k : proc X)                     (* append one record to a file *)
| Fail (e : stop).                                 (* undefined behaviour in this rank *)

Arguments Ret {X}. Arguments Send {X}. Arguments Recv {X}. Arguments Bcast {X}.
Arguments Barrier {X}. Arguments Out {X}. Arguments Fail {X}.

Fixpoint pbind {X Y} (p : proc X) (f : X -> proc Y) : proc Y :=
  match p with
  | Ret x => f x
  | Send d t m k => Send d t m (pbind k f)
  | Recv s t k => Recv s t (fun m => pbind (k m) f)
  | Bcast r m k => Bcast r m (fun m => pbind (k m) f)
  | Barrier k => Barrier (pbind k f)
  | Out e k => Out e (pbind k f)
  | Fail e => Fail e
  end.

Lemma pbind_assoc : forall {X Y Z} (p : proc X) (f : X -> proc Y) (g : Y -> proc Z),
  pbind (pbind p f) g = pbind p (fun x => pbind (f x) g).
Proof.
  intros X Y Z p f g. induction p; simpl; auto; try congruence;
    f_equal; apply functional_extensionality; intros; auto.
Qed.

Lemma pbind_ret : forall {X} (p : proc X), pbind p Ret = p.
Proof.
  intros X p. induction p; simpl; auto; try congruence;
    f_equal; apply functional_extensionality; intros; auto.
Qed.

(** Pure local computation inside a rank. *)
Definition plift {X} (r : res X) : proc X :=
  match r with OK x => Ret x | Stop e => Fail e end.

(** A loop over a list of ranks (or of any indices). *)
Fixpoint pfor {S I} (l : list I) (body : I -> S -> proc S) (s : S) : proc S :=
  match l with
  | [] => Ret s
  | i :: t => pbind (body i s) (pfor t body)
  end.

(** Append several records. *)
Fixpoint pouts {X} (es : list event) (k : proc X) : proc X :=
  match es with [] => k | e :: t => Out e (pouts t k) end.

(** ** Configurations *)
Variable F : Type.
Variable n : nat.   (* number of ranks *)

(** Queue keys: sender, receiver, and either a tag or the collective context. *)
Definition chans := nat -> nat -> option nat -> list msg.

Record cfg := mkCfg {
  pr : nat -> proc F;
  ch : chans;
  lg : nat -> list event
}.

Definition upd {V} (f : nat -> V) (r : nat) (v : V) : nat -> V :=
  fun x => if Nat.eqb x r then v else f x.

Definition key_eqb (s d : nat) (t : option nat) (s' d' : nat) (t' : option nat) : bool :=
  Nat.eqb s s' && Nat.eqb d d' &&
  match t, t' with
  | Some a, Some b => Nat.eqb a b
  | None, None => true
  | _, _ => false
  end.

Definition cupd (c : chans) (s d : nat) (t : option nat) (q : list msg) : chans :=
  fun s' d' t' => if key_eqb s d t s' d' t' then q else c s' d' t'.

(** Root pushes its broadcast value to every other rank. *)
Definition cbcast (c : chans) (root : nat) (m : msg) : chans :=
  fun s d t =>
    if Nat.eqb s root && negb (Nat.eqb d root) && Nat.ltb d n
       && match t with None => true | Some _ => false end
    then c s d t ++ [m] else c s d t.

Definition at_barrier (p : proc F) : bool := match p with Barrier _ => true | _ => false end.
Definition past_barrier (p : proc F) : proc F := match p with Barrier k => k | p => p end.

Definition all_at_barrier (c : cfg) : bool :=
  forallb (fun r => at_barrier (pr c r)) (seq 0 n).

Inductive label := LRank (r : nat) | LBar.

(** One step of the eager (fully buffered) semantics, as a partial function of the label. *)
Definition bstep (l : label) (c : cfg) : option cfg :=
  match l with
  | LRank r =>
    if Nat.ltb r n then
      match pr c r with
      | Send d t m k =>
          if Nat.ltb d n then
            Some (mkCfg (upd (pr c) r k)
                        (cupd (ch c) r d (Some t) (ch c r d (Some t) ++ [m])) (lg c))
          else Some (mkCfg (upd (pr c) r (Fail NoSuchRank)) (ch c) (lg c))
      | Recv s t k =>
          match ch c s r (Some t) with
          | m :: q => Some (mkCfg (upd (pr c) r (k m)) (cupd (ch c) s r (Some t) q) (lg c))
          | [] => None
          end
      | Bcast root m k =>
          if Nat.eqb r root then
            Some (mkCfg (upd (pr c) r (k m)) (cbcast (ch c) root m) (lg c))
          else
            match ch c root r None with
            | m' :: q => Some (mkCfg (upd (pr c) r (k m')) (cupd (ch c) root r None q) (lg c))
            | [] => None
            end
      | Out e k => Some (mkCfg (upd (pr c) r k) (ch c) (upd (lg c) r (lg c r ++ [e])))
      | _ => None
      end
    else None
  | LBar =>
    if all_at_barrier c then
      Some (mkCfg (fun r => if Nat.ltb r n then past_barrier (pr c r) else pr c r) (ch c) (lg c))
    else None
  end.

Fixpoint brun (ls : list label) (c : cfg) : option cfg :=
  match ls with
  | [] => Some c
  | l :: t => match bstep l c with Some c' => brun t c' | None => None end
  end.

(** A step of the mixed semantics.  [Eager]: any label of [bstep], i.e. the
    implementation buffers.  [Rendezvous]: sender and receiver meet.  [Joint]: a
    broadcast completes at once in all ranks. *)
Inductive mstep : cfg -> cfg -> Prop :=
| m_eager : forall l c c', bstep l c = Some c' -> mstep c c'
| m_rendezvous : forall c s d t m k k',
    s < n -> d < n -> s <> d ->
    pr c s = Send d t m k -> pr c d = Recv s t k' ->
    ch c s d (Some t) = [] ->
    mstep c (mkCfg (upd (upd (pr c) s k) d (k' m)) (ch c) (lg c))
| m_joint : forall c root m km kk mm,
    root < n ->
    (forall r, r < n -> pr c r = Bcast root (mm r) (kk r)) ->
    mm root = m -> (forall r, r < n -> km r = kk r m) ->
    (forall d, ch c root d None = []) ->
    mstep c (mkCfg (fun r => if Nat.ltb r n then km r else pr c r) (ch c) (lg c)).

(** A step that needs no buffer space: everything except an eager MPI_Send and
    an eager root-side MPI_Bcast. *)
Definition needs_buffer (l : label) (c : cfg) : bool :=
  match l with
  | LBar => false
  | LRank r => match pr c r with
               | Send _ _ _ _ => true
               | Bcast root _ _ => Nat.eqb r root
               | _ => false
               end
  end.

Inductive ustep : cfg -> cfg -> Prop :=
| u_eager : forall l c c', needs_buffer l c = false -> bstep l c = Some c' -> ustep c c'
| u_rendezvous : forall c s d t m k k',
    s < n -> d < n -> s <> d ->
    pr c s = Send d t m k -> pr c d = Recv s t k' ->
    ch c s d (Some t) = [] ->
    ustep c (mkCfg (upd (upd (pr c) s k) d (k' m)) (ch c) (lg c))
| u_joint : forall c root m km kk mm,
    root < n ->
    (forall r, r < n -> pr c r = Bcast root (mm r) (kk r)) ->
    mm root = m -> (forall r, r < n -> km r = kk r m) ->
    (forall d, ch c root d None = []) ->
    ustep c (mkCfg (fun r => if Nat.ltb r n then km r else pr c r) (ch c) (lg c)).

Inductive mstar : cfg -> nat -> cfg -> Prop :=
| ms_refl : forall c, mstar c 0 c
| ms_step : forall c c' c'' k, mstep c c' -> mstar c' k c'' -> mstar c (S k) c''.

(** Strict synchronous steps, on processes and logs only: used to exhibit one
    complete run.  No queue is ever used. *)
Record scfg := mkS { spr : nat -> proc F; slg : nat -> list event }.

Inductive sstep : scfg -> scfg -> Prop :=
| s_comm : forall c s d t m k k',
    s < n -> d < n -> s <> d ->
    spr c s = Send d t m k -> spr c d = Recv s t k' ->
    sstep c (mkS (upd (upd (spr c) s k) d (k' m)) (slg c))
| s_out : forall c r e k,
    r < n -> spr c r = Out e k ->
    sstep c (mkS (upd (spr c) r k) (upd (slg c) r (slg c r ++ [e])))
| s_bar : forall c kk,
    0 < n -> (forall r, r < n -> spr c r = Barrier (kk r)) ->
    sstep c (mkS (fun r => if Nat.ltb r n then kk r else spr c r) (slg c))
| s_bcast : forall c root kk mm,
    root < n ->
    (forall r, r < n -> spr c r = Bcast root (mm r) (kk r)) ->
    sstep c (mkS (fun r => if Nat.ltb r n then kk r (mm root) else spr c r) (slg c)).

Inductive sstar : scfg -> scfg -> Prop :=
| ss_refl : forall c, sstar c c
| ss_step : forall c c' c'', sstep c c' -> sstar c' c'' -> sstar c c''.

Lemma sstar_trans : forall a b c, sstar a b -> sstar b c -> sstar a c.
Proof. induction 1; intros; auto. eapply ss_step; eauto. Qed.

Lemma sstar_one : forall a b, sstep a b -> sstar a b.
Proof. intros. eapply ss_step; eauto. apply ss_refl. Qed.

Definition no_chans : chans := fun _ _ _ => [].
Definition inj (s : scfg) : cfg := mkCfg (spr s) no_chans (slg s).

Definition finished (c : cfg) : Prop := forall r, r < n -> exists x, pr c r = Ret x.

End Proc.

Arguments Ret {msg event X}. Arguments Send {msg event X}. Arguments Recv {msg event X}.
Arguments Bcast {msg event X}. Arguments Barrier {msg event X}. Arguments Out {msg event X}.
Arguments Fail {msg event X}. Arguments pbind {msg event X Y}. Arguments plift {msg event X}.
Arguments pfor {msg event S I}. Arguments pouts {msg event X}.
Arguments mkCfg {msg event F}. Arguments pr {msg event F}. Arguments ch {msg event F}.
Arguments lg {msg event F}. Arguments mkS {msg event F}. Arguments spr {msg event F}.
Arguments slg {msg event F}. Arguments inj {msg event F}.
