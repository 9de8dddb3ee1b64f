-Q theories Verif
theories/Acc_Model.v
theories/Acc_Proofs.v
theories/Acc_Spec.v
theories/Avl_Final.v
theories/Avl_Model.v
theories/Avl_Proofs.v
theories/Avl_Spec.v
theories/Avl_Tight.v
theories/Avl_Visit.v
theories/Base64_Model.v
theories/Base64_Proofs.v
theories/Base64_Spec.v
theories/Bits.v
theories/Brk_Model.v
theories/Brk_Proofs.v
theories/Brk_Spec.v
theories/Buddy_Model.v
theories/Buddy_Ops.v
theories/Buddy_Proofs.v
theories/Buddy_Spec.v
theories/Buddy_Tree.v
theories/Card.v
theories/Clock_Model.v
theories/Clock_Proofs.v
theories/Clock_Spec.v
theories/Cmd_Model.v
theories/Cmd_Proofs.v
theories/Cmd_Proofs2.v
theories/Cmd_Proofs3.v
theories/Cmd_Proofs4.v
theories/Cmd_Refuted.v
theories/Cmd_Spec.v
theories/Crc_Model.v
theories/Crc_Proofs.v
theories/Crc_Spec.v
theories/Csi_Model.v
theories/Csi_Proofs.v
theories/Csi_Proofs2.v
theories/Csi_Proofs3.v
theories/Csi_Proofs4.v
theories/Csi_Proofs5.v
theories/Csi_Proofs6.v
theories/Csi_Proofs7.v
theories/Csi_Refuted.v
theories/Csi_Spec.v
theories/Date_Model.v
theories/Date_Proofs.v
theories/Date_Spec.v
theories/Dir_Model.v
theories/Dir_Proofs.v
theories/Dir_Proofs2.v
theories/Dir_Proofs3.v
theories/Dir_Proofs4.v
theories/Dir_Proofs5.v
theories/Dir_Proofs6.v
theories/Dir_Proofs7.v
theories/Dir_Proofs8.v
theories/Dir_Refuted.v
theories/Dir_Spec.v
theories/Elf_Model.v
theories/Elf_Proofs.v
theories/Elf_Proofs2.v
theories/Elf_Proofs3.v
theories/Elf_Refuted.v
theories/Elf_Spec.v
theories/Exec_Model.v
theories/Exec_Proofs.v
theories/Exec_Proofs2.v
theories/Exec_Proofs3.v
theories/Exec_Proofs4.v
theories/Exec_Proofs5.v
theories/Exec_Refuted.v
theories/Exec_Spec.v
theories/Fat_Model.v
theories/Fat_Proofs.v
theories/Fat_Proofs2.v
theories/Fat_Proofs3.v
theories/Fat_Proofs4.v
theories/Fat_Refuted.v
theories/Fat_Spec.v
theories/Fatalign_Proofs.v
theories/Fatalign_Proofs2.v
theories/Fatalign_Refuted.v
theories/Fatalign_Spec.v
theories/Fatcomp_Model.v
theories/Fatcomp_Proofs.v
theories/Fatcomp_Proofs2.v
theories/Fatcomp_Proofs3.v
theories/Fatcomp_Proofs4.v
theories/Fatcomp_Proofs5.v
theories/Fatcomp_Proofs6.v
theories/Fatcomp_Proofs7.v
theories/Fatcomp_Refuted.v
theories/Fatcomp_Spec.v
theories/Fatdir_Model.v
theories/Fatdir_Proofs.v
theories/Fatdir_Proofs2.v
theories/Fatdir_Proofs3.v
theories/Fatdir_Proofs4.v
theories/Fatdir_Refuted.v
theories/Fatdir_Spec.v
theories/Fd_Model.v
theories/Fd_Proofs.v
theories/Fd_Proofs2.v
theories/Fd_Proofs3.v
theories/Fd_Proofs4.v
theories/Fd_Proofs5.v
theories/Fd_Refuted.v
theories/Fd_Spec.v
theories/Flock_Model.v
theories/Flock_Proofs.v
theories/Flock_Proofs2.v
theories/Flock_Spec.v
theories/Gk_Model.v
theories/Gk_Proofs.v
theories/Gk_Proofs2.v
theories/Gk_Proofs3.v
theories/Gk_Proofs4.v
theories/Gk_Proofs5.v
theories/Gk_Proofs6.v
theories/Gk_Proofs7.v
theories/Gk_Proofs8.v
theories/Gk_Refuted.v
theories/Gk_Spec.v
theories/Itoa_Model.v
theories/Itoa_Proofs.v
theories/Itoa_Spec.v
theories/Kb_Model.v
theories/Kb_Proofs.v
theories/Kb_Refuted.v
theories/Kb_Spec.v
theories/Kcond_Model.v
theories/Kcond_Proofs.v
theories/Kcond_Spec.v
theories/Kmutex_Model.v
theories/Kmutex_Proofs.v
theories/Kmutex_Spec.v
theories/Ksem_Model.v
theories/Ksem_Proofs.v
theories/Ksem_Spec.v
theories/Lib.v
theories/List_Model.v
theories/List_Proofs.v
theories/List_Spec.v
theories/Mmap_Model.v
theories/Mmap_Proofs.v
theories/Mmap_Spec.v
theories/P_Acc.v
theories/P_Avl.v
theories/P_Base64.v
theories/P_Brk.v
theories/P_Buddy.v
theories/P_Clock.v
theories/P_Cmd.v
theories/P_Crc.v
theories/P_Csi.v
theories/P_Date.v
theories/P_Dir.v
theories/P_Elf.v
theories/P_Exec.v
theories/P_Fat.v
theories/P_Fatalign.v
theories/P_Fatcomp.v
theories/P_Fatdir.v
theories/P_Fd.v
theories/P_Flock.v
theories/P_Gk.v
theories/P_Itoa.v
theories/P_Kb.v
theories/P_Kcond.v
theories/P_Kmutex.v
theories/P_Ksem.v
theories/P_List.v
theories/P_Mmap.v
theories/P_Paging.v
theories/P_Path.v
theories/P_Pid.v
theories/P_Pipe.v
theories/P_Pk.v
theories/P_Poll.v
theories/P_Printk.v
theories/P_Ramfs.v
theories/P_Resolve.v
theories/P_Ringbuf.v
theories/P_RwRp.v
theories/P_RwWp.v
theories/P_SafeRb.v
theories/P_Sched.v
theories/P_Sel.v
theories/P_Signal.v
theories/P_Sort.v
theories/P_Str.v
theories/P_Sysfs.v
theories/P_Term.v
theories/P_Timer.v
theories/P_Tq.v
theories/P_Tty.v
theories/P_Umap.v
theories/P_User.v
theories/P_Wait.v
theories/P_Wth.v
theories/Paging_Model.v
theories/Paging_Proofs.v
theories/Paging_Proofs2.v
theories/Paging_Proofs3.v
theories/Paging_Proofs4.v
theories/Paging_Proofs5.v
theories/Paging_Proofs6.v
theories/Paging_Proofs7.v
theories/Paging_Proofs8.v
theories/Paging_Refuted.v
theories/Paging_Spec.v
theories/Path_Model.v
theories/Path_Proofs.v
theories/Path_Spec.v
theories/Pid_Model.v
theories/Pid_Proofs.v
theories/Pid_Spec.v
theories/Pipe_Model.v
theories/Pipe_Proofs.v
theories/Pipe_Spec.v
theories/Pk_Model.v
theories/Pk_Proofs.v
theories/Pk_Proofs2.v
theories/Pk_Proofs3.v
theories/Pk_Proofs4.v
theories/Pk_Refuted.v
theories/Pk_Spec.v
theories/Poll_Model.v
theories/Poll_Proofs.v
theories/Poll_Proofs2.v
theories/Poll_Spec.v
theories/Printk_Model.v
theories/Printk_Proofs.v
theories/Printk_Proofs2.v
theories/Printk_Spec.v
theories/Ramfs_Model.v
theories/Ramfs_Proofs.v
theories/Ramfs_Proofs2.v
theories/Ramfs_Proofs3.v
theories/Ramfs_Spec.v
theories/Resolve_Model.v
theories/Resolve_Proofs.v
theories/Resolve_Proofs2.v
theories/Resolve_Proofs3.v
theories/Resolve_Proofs4.v
theories/Resolve_Proofs5.v
theories/Resolve_Proofs6.v
theories/Resolve_Refuted.v
theories/Resolve_Spec.v
theories/Ringbuf_Model.v
theories/Ringbuf_Proofs.v
theories/Ringbuf_Spec.v
theories/RwRp_Model.v
theories/RwRp_Proofs.v
theories/RwRp_Spec.v
theories/RwWp_Model.v
theories/RwWp_Proofs.v
theories/RwWp_Spec.v
theories/SafeRb_Model.v
theories/SafeRb_Proofs.v
theories/SafeRb_Spec.v
theories/Sched_Model.v
theories/Sched_Proofs.v
theories/Sched_Spec.v
theories/Sel_Model.v
theories/Sel_Proofs.v
theories/Sel_Proofs2.v
theories/Sel_Refuted.v
theories/Sel_Spec.v
theories/Signal_Model.v
theories/Signal_Proofs.v
theories/Signal_Spec.v
theories/Sort_Model.v
theories/Sort_Proofs.v
theories/Sort_Spec.v
theories/Str_Model.v
theories/Str_Proofs.v
theories/Str_Proofs2.v
theories/Str_Proofs3.v
theories/Str_Refuted.v
theories/Str_Spec.v
theories/Sysfs_Model.v
theories/Sysfs_Proofs.v
theories/Sysfs_Proofs2.v
theories/Sysfs_Proofs3.v
theories/Sysfs_Refuted.v
theories/Sysfs_Spec.v
theories/Term_Model.v
theories/Term_Proofs.v
theories/Term_Proofs2.v
theories/Term_Proofs3.v
theories/Term_Proofs4.v
theories/Term_Proofs5.v
theories/Term_Proofs6.v
theories/Term_Proofs7.v
theories/Term_Proofs8.v
theories/Term_Refuted.v
theories/Term_Spec.v
theories/Timer_Model.v
theories/Timer_Proofs.v
theories/Timer_Spec.v
theories/Tq_Model.v
theories/Tq_Proofs.v
theories/Tq_Refuted.v
theories/Tq_Spec.v
theories/TreeSet.v
theories/Tty_Model.v
theories/Tty_Proofs.v
theories/Tty_Proofs2.v
theories/Tty_Proofs3.v
theories/Tty_Refuted.v
theories/Tty_Spec.v
theories/Umap_Model.v
theories/Umap_Proofs.v
theories/Umap_Spec.v
theories/User_Model.v
theories/User_Proofs.v
theories/User_Spec.v
theories/Wait_Model.v
theories/Wait_Proofs.v
theories/Wait_Spec.v
theories/Wth_Model.v
theories/Wth_Proofs.v
theories/Wth_Spec.v
