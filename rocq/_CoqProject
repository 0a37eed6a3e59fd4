-Q theories Verif
theories/Base.v
theories/Prop_Model.v
theories/Prop_Spec.v
theories/Prop_Proofs.v
theories/Prop_Loop.v
theories/Prop_More.v
theories/Prop_Examples.v
theories/Prop_Props.v
theories/RK_Model.v
theories/RK_Spec.v
theories/RK_Check.v
theories/RK_Tables.v
theories/RK_Step.v
theories/RK_OrderSpec.v
theories/RK_BSeries.v
theories/RK_Local.v
theories/RK_Timed.v
theories/RK_Examples.v
theories/RK_Props.v
theories/ErrCtl_Model.v
theories/ErrCtl_Spec.v
theories/ErrCtl_Proofs.v
theories/ErrCtl_Props.v
theories/RustStd.v
theories/Traj_Model.v
theories/Traj_Spec.v
theories/Traj_Proofs.v
theories/Traj_Props.v
theories/Arc_Model.v
theories/Arc_Spec.v
theories/Arc_Proofs.v
theories/Arc_Props.v
theories/Arc_Down.v
theories/Sched_Model.v
theories/Sched_Spec.v
theories/Sched_Proofs.v
theories/Sched_Props.v
theories/Sol_Model.v
theories/Sol_Spec.v
theories/Sol_Proofs.v
theories/Sol_Props.v
theories/Stat_Model.v
theories/Stat_Spec.v
theories/Stat_Proofs.v
theories/Stat_Props.v
theories/Kf_Model.v
theories/Kf_Spec.v
theories/Kf_Linalg.v
theories/Kf_Abel.v
theories/Kf_Gain.v
theories/Kf_Proofs.v
theories/Kf_Props.v
theories/Kf_Error.v
theories/Sm_Model.v
theories/Sm_Proofs.v
theories/Sm_Props.v
theories/Odp_Model.v
theories/Odp_Spec.v
theories/Odp_Proofs.v
theories/Odp_More.v
theories/Odp_Props.v
theories/Vec3.v
theories/Sens_Model.v
theories/Sens_Spec.v
theories/Sens_Matrix.v
theories/Sens_Proofs.v
theories/Sens_Props.v
theories/Sens_Filter.v
theories/Noise_Model.v
theories/Noise_Spec.v
theories/Noise_Proofs.v
theories/Noise_Props.v
theories/Dsn_Model.v
theories/Dsn_Props.v
theories/Pos_Model.v
theories/Pos_Props.v
theories/Poly_Model.v
theories/Poly_Spec.v
theories/Poly_Props.v
theories/Angles.v
theories/Util_Model.v
theories/Util_Props.v
theories/Util_Pinv.v
theories/Sc_Model.v
theories/Sc_Props.v
theories/Guid_Model.v
theories/Dyn_Model.v
theories/Prop_Inv.v
theories/Dyn_Proofs.v
theories/Guid_Spec.v
theories/Guid_Steer.v
theories/Guid_Props.v
theories/Guid_Aop.v
theories/Guid_Eq.v
theories/Guid_Eff.v
theories/Guid_Blend.v
theories/Guid_Sum.v
theories/Guid_Hk.v
theories/Guid_Mnvr.v
theories/Dyn_Step.v
theories/Dyn_Props.v
theories/Dyn_Cases.v
theories/Dyn_Force.v
theories/Event_Model.v
theories/Event_Props.v
theories/Seq_Model.v
theories/Seq_Props.v
theories/Seq_Cases.v
theories/Lambert_Model.v
theories/Lambert_Arc.v
theories/Lambert_Proofs.v
theories/Lambert_Props.v
theories/Lambert_Izzo.v
theories/Lambert_Time.v
theories/Lambert_Search.v
theories/Lambert_Vinf.v
theories/Mc_Model.v
theories/Mc_Props.v
theories/Mvn_Model.v
theories/Mvn_Props.v
theories/Targ_Model.v
theories/Targ_Props.v
theories/Targ_Newton.v
theories/Targ_Cases.v
theories/Targ_Jac.v
theories/Bls_Model.v
theories/Bls_Proofs.v
theories/Bls_Props.v
theories/Bls_Cases.v
theories/Tdm_Model.v
theories/Tdm_Text.v
theories/Tdm_Proofs.v
theories/Tdm_Finish.v
theories/Tdm_Props.v
theories/Tdm_Cases.v
theories/Tdm_Units.v
theories/Tdm_Freq.v
theories/Der_Model.v
theories/Der_Proofs.v
theories/Der_Props.v
theories/Dual.v
theories/Orb_Model.v
theories/Orb_Spec.v
theories/Orb_Props.v
theories/Orb_Bodies.v
theories/Grav_Legendre.v
theories/Grav_Model.v
theories/Grav_Spec.v
theories/Grav_Table.v
theories/Grav_Sum.v
theories/Grav_Props.v
theories/Grav_Grad.v
theories/Shg_Model.v
theories/Shg_Spec.v
theories/Shg_Proofs.v
theories/Shg_Props.v
theories/Shg_Cases.v
theories/Force_Model.v
theories/Force_Spec.v
theories/Srp_Props.v
theories/Srp_Cases.v
theories/Drag_Props.v
theories/Gnd_Model.v
theories/Gnd_Spec.v
theories/Gnd_Proofs.v
theories/Gnd_Props.v
theories/Gnd_Od_Props.v
theories/Bpl_Model.v
theories/Bpl_Spec.v
theories/Bpl_Proofs.v
theories/Bpl_Props.v
theories/Tide_Model.v
theories/Tide_Spec.v
theories/Tide_Proofs.v
theories/Tide_Props.v
theories/Hyp_Model.v
theories/Hyp_Props.v
theories/Hyp_Cases.v
theories/Msh_Model.v
theories/Msh_Props.v
theories/Msh_Cases.v
theories/Msh_Conv.v
theories/Msh_Err.v
theories/Msh_Run.v
theories/Msh_Heur.v
theories/Dvc_Model.v
theories/Dvc_Props.v
theories/Est_Model.v
theories/Est_Props.v
theories/Odk_Model.v
theories/Odk_Case.v
theories/Odk_Props.v
theories/Pq_Model.v
theories/Apq_Model.v
theories/Apq_Props.v
theories/Tpq_Model.v
theories/Tpq_Props.v
theories/Spq_Model.v
theories/Spq_Props.v
theories/Gpq_Model.v
theories/Gpq_Props.v
theories/Rdf_Model.v
theories/Rdf_Props.v
theories/Rdf_File.v
theories/Oem_Model.v
theories/Oem_Props.v
theories/Mpq_Model.v
theories/Mpq_Props.v
theories/Dve_Model.v
theories/Dve_Props.v
theories/Nees_Model.v
theories/Nees_Props.v
theories/Opt_Model.v
theories/Opt_Props.v
theories/Snc_Model.v
theories/Snc_Props.v
theories/Eq_Model.v
theories/Eq_Props.v
theories/Link_Model.v
theories/Link_Props.v
theories/Mst_Model.v
theories/Mst_Props.v
theories/Esr_Model.v
theories/Esr_Props.v
theories/Gtk_Model.v
theories/Gtk_Props.v
