-Q theories Verif
theories/Base.v
theories/Base_lemmas.v
theories/Ex_Deliver.v
theories/Ex_Ev.v
theories/Ex_McNet.v
theories/Ex_Net.v
theories/Model_Api.v
theories/Model_Buf.v
theories/Model_Bus.v
theories/Model_Bus2.v
theories/Model_CC.v
theories/Model_Conf.v
theories/Model_Conv.v
theories/Model_Cover.v
theories/Model_Deliver.v
theories/Model_Dso.v
theories/Model_Due.v
theories/Model_Emission.v
theories/Model_Ev.v
theories/Model_GRJ.v
theories/Model_Grad.v
theories/Model_Graph.v
theories/Model_Gridlock.v
theories/Model_Io.v
theories/Model_Link.v
theories/Model_Lowest.v
theories/Model_Ltg.v
theories/Model_Ltm.v
theories/Model_McAttr.v
theories/Model_McLink.v
theories/Model_McNode.v
theories/Model_McSim.v
theories/Model_McSpill.v
theories/Model_McWait.v
theories/Model_Mio.v
theories/Model_Mmp.v
theories/Model_Node.v
theories/Model_Num.v
theories/Model_Other.v
theories/Model_Path.v
theories/Model_Pathset.v
theories/Model_PreRouting.v
theories/Model_Proute.v
theories/Model_PyCC.v
theories/Model_Query.v
theories/Model_Rt.v
theories/Model_SP.v
theories/Model_Silence.v
theories/Model_Sim.v
theories/Model_Split.v
theories/Model_Stat.v
theories/Model_TDSP.v
theories/Model_TdIo.v
theories/Model_TdspApi.v
theories/Model_Text.v
theories/Model_Track.v
theories/Model_TrackIo.v
theories/Model_VmsIo.v
theories/Model_World.v
theories/Proof_Api.v
theories/Proof_Api0.v
theories/Proof_Api2.v
theories/Proof_Api3.v
theories/Proof_Buf.v
theories/Proof_Buf2.v
theories/Proof_Bus.v
theories/Proof_Bus2.v
theories/Proof_Bus3.v
theories/Proof_Bus4.v
theories/Proof_Bus5.v
theories/Proof_CC.v
theories/Proof_CC2.v
theories/Proof_CC3.v
theories/Proof_Choice.v
theories/Proof_Choice2.v
theories/Proof_Conf.v
theories/Proof_Conf2.v
theories/Proof_Conv.v
theories/Proof_Conv2.v
theories/Proof_Cover.v
theories/Proof_Curve1.v
theories/Proof_Curve2.v
theories/Proof_Curve3.v
theories/Proof_Curve4.v
theories/Proof_Deliver1.v
theories/Proof_Deliver2.v
theories/Proof_Deliver3.v
theories/Proof_Deliver4.v
theories/Proof_Dso.v
theories/Proof_Dso2.v
theories/Proof_Due.v
theories/Proof_Due2.v
theories/Proof_Due3.v
theories/Proof_Due4.v
theories/Proof_Due5.v
theories/Proof_Emission.v
theories/Proof_Emission2.v
theories/Proof_Emission3.v
theories/Proof_Ev.v
theories/Proof_Ev2.v
theories/Proof_GRJ.v
theories/Proof_Grad1.v
theories/Proof_Grad2.v
theories/Proof_Grad3.v
theories/Proof_Grad4.v
theories/Proof_Grad5.v
theories/Proof_Grad6.v
theories/Proof_Graph.v
theories/Proof_Graph2.v
theories/Proof_Io.v
theories/Proof_Io2.v
theories/Proof_Io3.v
theories/Proof_Link.v
theories/Proof_Link2.v
theories/Proof_Link3.v
theories/Proof_Link4.v
theories/Proof_Link5.v
theories/Proof_Link6.v
theories/Proof_Lowest.v
theories/Proof_Ltg.v
theories/Proof_Ltg2.v
theories/Proof_Ltm.v
theories/Proof_Ltm2.v
theories/Proof_Ltm3.v
theories/Proof_Ltm4.v
theories/Proof_McAttr.v
theories/Proof_McLink.v
theories/Proof_McLink2.v
theories/Proof_McLink3.v
theories/Proof_McLink4.v
theories/Proof_McLink5.v
theories/Proof_McLink6.v
theories/Proof_McNode.v
theories/Proof_McNode2.v
theories/Proof_McNode3.v
theories/Proof_McNode4.v
theories/Proof_McNode5.v
theories/Proof_McRoute1.v
theories/Proof_McRoute2.v
theories/Proof_McRoute3.v
theories/Proof_McSim1.v
theories/Proof_McSim2.v
theories/Proof_McSim3.v
theories/Proof_McSim4.v
theories/Proof_McSim5.v
theories/Proof_McSpill.v
theories/Proof_McValid0.v
theories/Proof_McValid1.v
theories/Proof_McValid2.v
theories/Proof_McWait.v
theories/Proof_Mio.v
theories/Proof_Mio2.v
theories/Proof_Mio3.v
theories/Proof_Mio4.v
theories/Proof_Mmp.v
theories/Proof_Mmp2.v
theories/Proof_Mmp3.v
theories/Proof_Mmp4.v
theories/Proof_Mmp5.v
theories/Proof_Node.v
theories/Proof_Node2.v
theories/Proof_Node3.v
theories/Proof_Node4.v
theories/Proof_Node5.v
theories/Proof_Num.v
theories/Proof_Other.v
theories/Proof_Path.v
theories/Proof_Pathset.v
theories/Proof_PreRouting.v
theories/Proof_PreRouting2.v
theories/Proof_Proute.v
theories/Proof_Proute2.v
theories/Proof_Proute3.v
theories/Proof_Query.v
theories/Proof_Rt.v
theories/Proof_Rt2.v
theories/Proof_Rt3.v
theories/Proof_Rt4.v
theories/Proof_SP.v
theories/Proof_Safe1.v
theories/Proof_Safe2.v
theories/Proof_Safe3.v
theories/Proof_Safe4.v
theories/Proof_Silence.v
theories/Proof_Sim1.v
theories/Proof_Sim2.v
theories/Proof_Sim3.v
theories/Proof_Sim4.v
theories/Proof_Sim5.v
theories/Proof_Sim6.v
theories/Proof_Sim7.v
theories/Proof_Split.v
theories/Proof_Split2.v
theories/Proof_Split3.v
theories/Proof_Split4.v
theories/Proof_Stat.v
theories/Proof_TDSP.v
theories/Proof_TDSP2.v
theories/Proof_TdIo.v
theories/Proof_TdspApi.v
theories/Proof_TdspApi2.v
theories/Proof_Text.v
theories/Proof_Track.v
theories/Proof_TrackIo.v
theories/Prop_Api.v
theories/Prop_Buf.v
theories/Prop_Bus.v
theories/Prop_Bus2.v
theories/Prop_CC.v
theories/Prop_Choice.v
theories/Prop_Conf.v
theories/Prop_Conv.v
theories/Prop_Cover.v
theories/Prop_Curve.v
theories/Prop_Deliver.v
theories/Prop_Deliver2.v
theories/Prop_Dso.v
theories/Prop_Due.v
theories/Prop_Emission.v
theories/Prop_Ev.v
theories/Prop_GRJ.v
theories/Prop_Grad.v
theories/Prop_Graph.v
theories/Prop_Gridlock.v
theories/Prop_Io.v
theories/Prop_Junction2.v
theories/Prop_Link.v
theories/Prop_Lowest.v
theories/Prop_Ltg.v
theories/Prop_Ltm.v
theories/Prop_McAttr.v
theories/Prop_McLink.v
theories/Prop_McNode.v
theories/Prop_McRoute.v
theories/Prop_McSim.v
theories/Prop_McSpill.v
theories/Prop_McValid.v
theories/Prop_McWait.v
theories/Prop_Mio.v
theories/Prop_Mmp.v
theories/Prop_Node.v
theories/Prop_Num.v
theories/Prop_Other.v
theories/Prop_Path.v
theories/Prop_Pathset.v
theories/Prop_PreRouting.v
theories/Prop_Proute.v
theories/Prop_PyCC.v
theories/Prop_Query.v
theories/Prop_Route.v
theories/Prop_Rt.v
theories/Prop_SP.v
theories/Prop_Safe.v
theories/Prop_Silence.v
theories/Prop_Sim.v
theories/Prop_Split.v
theories/Prop_Stat.v
theories/Prop_TDSP.v
theories/Prop_TdIo.v
theories/Prop_TdspApi.v
theories/Prop_Track.v
theories/Prop_TrackIo.v
theories/Prop_VmsIo.v
theories/Spec_Api.v
theories/Spec_Buf.v
theories/Spec_Bus.v
theories/Spec_Bus2.v
theories/Spec_CC.v
theories/Spec_Choice.v
theories/Spec_Conf.v
theories/Spec_Conv.v
theories/Spec_Cover.v
theories/Spec_Curve.v
theories/Spec_Deliver.v
theories/Spec_Dso.v
theories/Spec_Due.v
theories/Spec_Emission.v
theories/Spec_Ev.v
theories/Spec_Grad.v
theories/Spec_Graph.v
theories/Spec_Gridlock.v
theories/Spec_Io.v
theories/Spec_Link.v
theories/Spec_Lowest.v
theories/Spec_Ltg.v
theories/Spec_Ltm.v
theories/Spec_McAttr.v
theories/Spec_McLink.v
theories/Spec_McNode.v
theories/Spec_McRoute.v
theories/Spec_McSim.v
theories/Spec_McSpill.v
theories/Spec_McValid.v
theories/Spec_McWait.v
theories/Spec_Mio.v
theories/Spec_Mmp.v
theories/Spec_Node.v
theories/Spec_Other.v
theories/Spec_Path.v
theories/Spec_Pathset.v
theories/Spec_PreRouting.v
theories/Spec_Proute.v
theories/Spec_Query.v
theories/Spec_Route.v
theories/Spec_Rt.v
theories/Spec_SP.v
theories/Spec_Silence.v
theories/Spec_Sim.v
theories/Spec_Split.v
theories/Spec_Stat.v
theories/Spec_TDSP.v
theories/Spec_TdIo.v
theories/Spec_TdspApi.v
theories/Spec_Track.v
theories/Spec_TrackIo.v
theories/Spec_Valid.v
theories/Spec_VmsIo.v
